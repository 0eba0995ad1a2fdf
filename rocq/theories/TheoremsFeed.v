(** Theorems: merging in untrusted blocks after a check of depths. *)
From Verif Require Import Strict SpecMerkle MerkleProofs SpecCommit SpecFull SpecCodec StrictProofs CodecProofs.
From Verif Require Import Base BaseFacts OrdMap OrdMapFacts SpecHash HashFacts Merkle MpcAtoms
  MpcTree MpcBlock SpecTree SpecBlock SpecDerived SpecValid SpecSession TreeFacts ConcealProofs BlockInv PathProofs MergeProofs
  PrefixProofs MpcTreeProofs DerivedProofs MergeLooseProofs PoisonProofs SessionProofs SpecSettled TheoremsMpc TheoremsBlock TheoremsMore TheoremsAdv
  TheoremsExt TheoremsLocal TheoremsSession TheoremsSettled SpecFuse TheoremsFuse SpecTarget SpecGame SpecFind SpecCount SpecQuery SpecScript GameProofs TargetProofs TheoremsQuery TheoremsCount TheoremsFind TheoremsGame TheoremsTarget TheoremsScript SpecFeed.
Local Open Scope nat_scope.

Section Feed.
Context {H : Hasher}.

Definition entropy_small (b : merkle_block) : Prop := match mb_entropy b with Some e => (e < 2 ^ 64)%N | None => True end.
Lemma merged_entropy md b1 b2 b' r : merge_reveal md b1 b2 = Ret (b', r) -> entropy_small b1 -> entropy_small b'.
Proof.
  intros E O. destruct r as [n|e].
  - destruct (c16_merge_any _ _ _ _ _ _ E) as [c [_ [_ [_ [_ [_ [_ Q]]]]]]]. unfold entropy_small. rewrite Q. exact O.
  - apply c75_refusal in E as (c1 & c2 & _ & _ & _ & -> & _). exact O.
Qed.
Lemma block_with_entropy pf p m b : block_with pf p m = Ret (Ok b) -> entropy_small b.
Proof.
  intros E2. unfold block_with in E2. repeat (apply bind_inv in E2 as [? [_ E2]]). cbv zeta in E2.
  destruct (negb _); [discriminate|]. apply bind_inv in E2 as [[dir rv] [_ E2]].
  apply bind_inv in E2 as [? [_ E2]]. injection E2 as <-. exact I.
Qed.
Lemma session_entropy md c L b : session md c L b -> entropy_small b.
Proof.
  induction 1 as [bs b pt D B E|bs pf pid msg b D C E|L b ids b' r S IH E|L1 L2 b1 b2 b' r S1 IH1 S2 IH2 E
    |L b bs o po b' r S IH D B E|L b bs pf pid msg b' r S IH D E|L b p m pf b' S IH I0 E1 E2].
  - exact (proj2 (proj2 (proj2 (proj2 (proj2 (law_can _ _ c_merkle_block_lawful _ _ _ D)))))).
  - exact (block_with_entropy _ _ _ _ E).
  - rewrite conceal_except_unfold in E. destruct (missing ids _); [|injection E as <- _; exact I].
    apply bind_inv in E as [[xs x] [_ E]]. injection E as <- _. exact I.
  - exact (merged_entropy _ _ _ _ _ E IH1).
  - exact (merged_entropy _ _ _ _ _ E IH).
  - unfold merge_reveal_path in E. destruct (block_with pf pid msg) as [[o|e]|]; cbn [bind] in E; [|injection E as <- _; exact IH|discriminate].
    exact (merged_entropy _ _ _ _ _ E IH).
  - exact (block_with_entropy _ _ _ _ E2).
Qed.

Lemma wf_entropy_valid b pt : block_tree b pt -> entropy_small b -> valid_block b.
Proof.
  intros [HD [Hc [Hx Hw]]] O. split; [exact HD|split; [exact Hc|split; [|split]]].
  - rewrite Hx. pose proof (flatten_length_sp _ _ _ Hw) as L. unfold sp in L. rewrite Nat.sub_0_r in L.
    pose proof (flatten_nonempty 0 pt).
    assert (2 ^ N.of_nat (mb_depth b) <= 2 ^ 31)%N by (apply N.pow_le_mono_r; lia).
    assert (2 ^ 31 < 2 ^ 32)%N by reflexivity. destruct (flatten 0 pt); [congruence|cbn [length] in *; lia].
  - rewrite Hx. apply (flatten_valid (mb_depth b)); assumption.
  - exact O.
Qed.

Lemma honest_pwf_second D cof pt t : good_tree t -> D <= 31 -> (cof < 2 ^ 16)%N -> pwf_loose D 0 pt ->
  pcommit D cof pt = pcommit (mt_depth t) (mt_cofactor t) (tree_full t) ->
  pwf D 0 pt \/ second_in (tree_pre t) (pcommit_pre D cof pt).
Proof.
  intros G HD Hc Hw E.
  assert (B16 : (500 < 2 ^ 16)%N) by reflexivity. pose proof (gt_cofactor _ G) as Gc.
  assert (Gc' : (mt_cofactor t < 2 ^ 16)%N) by lia.
  destruct (pcommit_second _ _ _ _ _ _ HD (gt_depth _ G) Hc Gc' E) as [[ED [EC C]]|C].
  2: { right. apply second_swap. eapply second_mono; [apply incl_refl|apply tree_pre_commit|exact C]. }
  subst D. unfold tree_full in C.
  destruct (compat_full_pwf _ (mt_depth t) 0 0 pt (slot t) (slot_is_slot t) Hw C) as [P|(q & e & x & y & h & R & Q & I & K)];
    [left; exact P|right].
  unfold slot in Q. destruct (om_get N.ltb q (mt_map t)) as [[p' m']|] eqn:Eg; [discriminate|]. injection Q as Q.
  exists (s_entropy (mt_entropy t) q), (s_branch e (2 ^ N.of_nat (mt_depth t)) x y). repeat split.
  - unfold tree_pre, entropy_pre. apply in_or_app. right. apply in_flat_map.
    exists q. rewrite Eg. split; [apply N_from_In; rewrite pow_of_nat; lia|left; reflexivity].
  - unfold pcommit_pre. apply in_or_app. right. exact I.
  - apply s_entropy_branch.
  - congruence.
Qed.

(** What is merged in could as well have been cut to its tree. *)
Lemma feed_cut md b o pt to rest b' n :
  block_tree b pt -> entropy_small b -> valid_block o -> (md = Release -> acceptable o) -> (md = Debug -> rest = []) ->
  mb_cross_section o = flatten 0 to ++ rest -> pwf (mb_depth o) 0 to ->
  mb_depth b = mb_depth o -> mb_cofactor b = mb_cofactor o -> pcompat (2 ^ N.of_nat (mb_depth b)) 0 pt to ->
  merge_reveal md b o = Ret (b', Ok n) ->
  exists bs o' n', dec c_merkle_block bs = Some (o', []) /\ block_tree o' to /\ mb_depth o' = mb_depth o /\ mb_cofactor o' = mb_cofactor o /\
     merge_reveal md b o' = Ret (b', Ok n').
Proof.
  intros B Eb Vo Ac Rd Xo Po ED EC PC M. pose proof B as [HD [HC [Xb Pb]]].
  pose proof (wf_entropy_valid b pt B Eb) as Vb.
  destruct (c16_merge_any H md b o b' n M) as (x & Ib' & Io & _ & F1 & F2 & F3 & F4).
  set (o' := MBlock (mb_method o) (mb_depth o) (mb_cofactor o) (flatten 0 to) None).
  assert (Bo : block_tree o' to).
  { split; [apply Vo|]. split; [apply Vo|]. split; [reflexivity|exact Po]. }
  assert (X : mb_cross_section b' = flatten 0 (pjoin pt to)).
  { destruct md.
    - rewrite (Rd eq_refl), app_nil_r in Xo.
      destruct (merge_reveal_compat Debug b o pt to) as [E _]; [exact B| |exact ED|exact EC|exact PC|].
      + split; [apply Vo|]. split; [apply Vo|]. split; [exact Xo|exact Po].
      + rewrite M in E. injection E as -> _. reflexivity.
    - destruct (Ac eq_refl) as [Sh Na]. rewrite <- ED in Po, Sh, Na.
      destruct (narrow_merge b o pt to [] rest b' n Vb Vo ED PC) as (r & Q & Z & F);
        [rewrite app_nil_r; exact Xb|exact Pb|exact Xo|exact Po| |exact M|].
      + rewrite <- ED, Xb, (heights_flatten _ _ _ Pb), Nat.sub_0_r.
        change (2 ^ 32)%N with 4294967296%N in *. lia.
      + unfold shallow_nodes in Sh. rewrite Xo in Sh. apply Forall_app in Sh as [_ Sh].
        apply (heights_zero (mb_depth b)) in Z; [|apply F; [constructor|exact Sh]]. subst r. rewrite app_nil_r in Q. exact Q. }
  destruct (merge_reveal_compat md b o' pt to B Bo ED EC PC) as [E _].
  exists (enc c_merkle_block o'), o'. eexists. split; [|split; [exact Bo|split; [reflexivity|split; [reflexivity|]]]].
  - rewrite <- (app_nil_r (enc c_merkle_block o')). apply (law_rt _ valid_block); [exact c_merkle_block_lawful|].
    apply (wf_entropy_valid o' to Bo). exact I.
  - rewrite E. f_equal. f_equal. destruct b' as [m' d' c' s' e']. cbn in *. subst. reflexivity.
Qed.
Lemma feed_trim md t b o pt to rest b' n :
  good_tree t -> view_block t b pt -> entropy_small b -> valid_block o -> (md = Release -> acceptable o) ->
  mb_cross_section o = flatten 0 to ++ rest -> pwf_loose (mb_depth o) 0 to ->
  merge_reveal md b o = Ret (b', Ok n) ->
  (exists bs o' n', dec c_merkle_block bs = Some (o', []) /\ block_tree o' to /\ mb_depth o' = mb_depth o /\ mb_cofactor o' = mb_cofactor o /\
     merge_reveal md b o' = Ret (b', Ok n')) \/
  second_in (tree_pre t) (pcommit_pre (mb_depth o) (mb_cofactor o) to).
Proof.
  intros G V Eb Vo Ac Xo Wo M. pose proof V as [B [PV [VD [VC _]]]].
  pose proof (view_block_commit md t b pt G V) as Ib.
  destruct (c16_merge_any H md b o b' n M) as (x & Ib' & Io & _).
  destruct (c51_prefix H md o x Vo Io) as (to' & rest' & _ & _ & Ix & Rd & U). destruct (U to rest Xo Wo) as [<- <-].
  assert (Ex : pcommit (mb_depth o) (mb_cofactor o) to = pcommit (mt_depth t) (mt_cofactor t) (tree_full t)) by congruence.
  destruct (honest_pwf_second (mb_depth o) (mb_cofactor o) to t G) as [Po|K]; [apply Vo|apply Vo|exact Wo|exact Ex| |right; exact K].
  set (o' := MBlock (mb_method o) (mb_depth o) (mb_cofactor o) (flatten 0 to) None).
  assert (Bo : block_tree o' to).
  { split; [apply Vo|]. split; [apply Vo|]. split; [reflexivity|exact Po]. }
  destruct (wf_view_second o' t to G Bo Ex) as [[_ [PV' [VD' [VC' _]]]]|K]; [left|right; exact K]. cbn in VD', VC'.
  eapply feed_cut; try eassumption; [congruence|congruence|].
  rewrite VD. eapply pview_compat; eassumption.
Qed.

Lemma first_wf md b c pt rest : valid_block b -> block_commit_id md b = Ret c ->
  shallow_nodes (mb_depth b) (mb_cross_section b) ->
  (md = Release -> heights_sum (mb_depth b) (mb_cross_section b) = (2 ^ N.of_nat (mb_depth b))%N) ->
  mb_cross_section b = flatten 0 pt ++ rest -> pwf_loose (mb_depth b) 0 pt -> block_tree b pt.
Proof.
  intros Vb Ib Sh Hs X W.
  assert (Wf : wf_block b).
  { destruct md; [apply (c70_debug_gate H b Vb); split; [eauto|exact Sh]|].
    apply (c70_gate H Release b Vb). split; [eauto|]. split; [exact (Hs eq_refl)|exact Sh]. }
  destruct Wf as [t' B]. pose proof B as [_ [_ [X' W']]].
  destruct (c51_prefix H md b c Vb Ib) as (t & r & _ & _ & _ & _ & U).
  destruct (U pt rest X W) as [-> ->]. destruct (U t' [] ltac:(rewrite app_nil_r; exact X') (pwf_loose_of _ _ _ W')) as [<- _]. exact B.
Qed.

Lemma reception_session md c t L b : good_tree t -> c = pcommit (mt_depth t) (mt_cofactor t) (tree_full t) -> reception md c L b ->
  (exists L', incl L' L /\ session md c L' b) \/ second_in (tree_pre t) L.
Proof.
  intros G Ec.
  assert (Mono : forall L1 L2, incl L1 L2 -> second_in (tree_pre t) L1 -> second_in (tree_pre t) L2).
  { intros L1 L2 I. apply second_mono; [apply incl_refl|exact I]. }
  induction 1 as [bs b pt rest D E Sh Hs X W|bs pf pid msg b D C E|L b ids b' r S IH E|L1 L2 b1 b2 b' r S1 IH1 S2 IH2 E
    |L b bs o to rest b' r S IH D Ac X W E|L b bs pf pid msg b' r S IH D E|L b p m pf b' S IH I0 E1 E2].
  - left. exists (pcommit_pre (mb_depth b) (mb_cofactor b) pt). split; [apply incl_refl|].
    apply (ss_block md c bs); [exact D| |exact E].
    eapply first_wf; try eassumption. exact (proj2 (law_can _ _ c_merkle_block_lawful _ _ _ D)).
  - left. exists (proof_pre pf pid msg). split; [apply incl_refl|]. eapply ss_proof; eassumption.
  - destruct IH as [[L' [Q Ss]]|K]; [left|right; exact K]. exists L'. split; [exact Q|]. eapply ss_conceal; eassumption.
  - destruct IH1 as [[L1' [Q1 Ss1]]|K]; [|right; revert K; apply Mono, incl_appl, incl_refl].
    destruct IH2 as [[L2' [Q2 Ss2]]|K]; [|right; revert K; apply Mono, incl_appr, incl_refl].
    left. exists (L1' ++ L2'). split; [apply incl_app; [apply incl_appl|apply incl_appr]; assumption|]. eapply ss_merge; eassumption.
  - destruct IH as [[L' [Q Ss]]|K]; [|right; revert K; apply Mono, incl_appl, incl_refl].
    destruct r as [n|e].
    2: { left. exists L'. split; [apply incl_appl; exact Q|]. apply c75_refusal in E as (c1 & c2 & _ & _ & _ & -> & _). exact Ss. }
    destruct (session_second md t c L' b G Ec Ss) as [[pt V]|K].
    2: { right. revert K. apply Mono, incl_appl, Q. }
    destruct (feed_trim md t b o pt to rest b' n G V (session_entropy _ _ _ _ Ss) (proj2 (law_can _ _ c_merkle_block_lawful _ _ _ D)) Ac X W E)
      as [(bs' & o' & n' & D' & B' & E1 & E2 & M')|K].
    + left. exists (L' ++ pcommit_pre (mb_depth o) (mb_cofactor o) to). split.
      * apply incl_app; [apply incl_appl; exact Q|apply incl_appr, incl_refl].
      * rewrite <- E1, <- E2. eapply ss_feed; eassumption.
    + right. revert K. apply Mono, incl_appr, incl_refl.
  - destruct IH as [[L' [Q Ss]]|K]; [|right; revert K; apply Mono, incl_appl, incl_refl].
    left. exists (L' ++ proof_pre pf pid msg). split; [apply incl_app; [apply incl_appl; exact Q|apply incl_appr, incl_refl]|].
    eapply ss_path; eassumption.
  - destruct IH as [[L' [Q Ss]]|K]; [left|right; exact K]. exists L'. split; [exact Q|]. eapply ss_extract; eassumption.
Qed.

End Feed.

(** ** C125 *)
Lemma c125_session : forall (H : Hasher) md md' src rng t c L b
  (valid : valid_source src) (made : try_commit src rng = Ret (Ok t)) (tree_id : tree_commit_id md' t = Ret c)
  (held : reception md c L b),
  (exists L', incl L' L /\ session md c L' b) \/ second_in (tree_pre t) L.
Proof.
  intros H md md' src rng t c L b V E It R. pose proof (try_commit_good _ _ _ V E) as G. apply tree_id_is in It; [|exact G].
  exact (reception_session md c t L b G It R).
Qed.
Lemma session_or_collision (H : Hasher) md md' src rng t c L b :
  valid_source src -> try_commit src rng = Ret (Ok t) -> tree_commit_id md' t = Ret c -> reception md c L b ->
  (exists L', incl L' L /\ session md c L' b) \/ collision_in (L ++ tree_pre t).
Proof.
  intros V E It R. destruct (c125_session H md md' src rng t c L b V E It R) as [X|(x & y & Ix & Iy & N & Q)]; [left; exact X|right].
  exists x, y. repeat split; auto; apply in_or_app; auto.
Qed.
Lemma c125_truth : forall (H : Hasher) md md' src rng t c L b
  (valid : valid_source src) (made : try_commit src rng = Ret (Ok t)) (tree_id : tree_commit_id md' t = Ret c)
  (held : reception md c L b),
  (block_commit_id md b = Ret c /\ mb_depth b = mt_depth t /\ mb_cofactor b = mt_cofactor t /\ wf_block b /\
   (forall p m, In (p, m) (known_leaves (mb_cross_section b)) -> In (p, m) (ms_messages src)) /\
   forall ids, exists b2 r, conceal_except md b ids = Ret (b2, r)) \/
  collision_in (L ++ tree_pre t).
Proof.
  intros H md md' src rng t c L b V E It R.
  destruct (session_or_collision H md md' src rng t c L b V E It R) as [[L' [Q S]]|K]; [|right; exact K].
  assert (K0 : collision_in (L' ++ tree_pre t) -> collision_in (L ++ tree_pre t)).
  { intros K. eapply coll_incl; [|exact K]. intros x HI. rewrite !in_app_iff in *. destruct HI as [HI|HI]; [apply Q in HI|]; tauto. }
  destruct (c78_truth H md md' src rng t c L' b V E It S) as [(A1 & _ & A3 & A4 & A5 & pt & B & _)|K]; [|right; apply K0, K].
  destruct (c78_operations H md md' src rng t c L' L' b b V E It S S) as [(C1 & _)|K].
  - left. split; [exact A1|]. split; [exact A3|]. split; [exact A4|]. split; [exists pt; exact B|]. split; [exact A5|exact C1].
  - right. apply K0. eapply coll_incl; [|exact K]. intros x HI. rewrite !in_app_iff in *. tauto.
Qed.
(** The check of depths is needed even when the library made the commitment: two nodes below the leaves, and one of them stays. *)
Lemma c125_deep_refuted : forall (H : Hasher) p m, exists t c a o b n,
  try_commit (MultiSource Sha256t 0 [(p, m)] (Some 7%N)) None = Ret (Ok t) /\ tree_commit_id Release t = Ret c /\
  valid_block a /\ wf_block a /\ block_commit_id Release a = Ret c /\ valid_block o /\ length (mb_cross_section o) = 3 /\
  (heights_sum (mb_depth o) (mb_cross_section o) < 2 ^ 32)%N /\
  merge_reveal Release a o = Ret (b, Ok n) /\ ~ wf_block b.
Proof.
  intros H p m. destruct (c62_single H Release Sha256t p m (Some 7%N) None 7%N eq_refl) as (t & E & _ & _ & _ & It).
  set (a := MBlock Sha256t 0 0 [CommitmentLeaf p m] None).
  set (o := MBlock Sha256t 0 0 [CommitmentLeaf p m; ConcealedNode 9 p; ConcealedNode 7 p] None).
  assert (Va : valid_block a) by (repeat (split || constructor); cbn; lia).
  assert (Vo : valid_block o) by (repeat (split || constructor); cbn; lia).
  assert (Ba : block_tree a (PLeaf p m)) by (repeat split; cbn; lia).
  assert (S2 : settled 0 1 0 [(9, PConc p); (7, PConc p)]) by (cbn; repeat split; intros; try lia; try discriminate).
  assert (S1 : settled 0 1 0 [(7, PConc p)]) by (cbn; repeat split; intros; try lia; try discriminate).
  destruct (fuse_exact a o (PLeaf p m) (PLeaf p m) [] [(9, PConc p); (7, PConc p)] Va Vo eq_refl eq_refl) as [[_ M]|[N _]].
  - cbn. auto.
  - reflexivity.
  - cbn. lia.
  - exact I.
  - reflexivity.
  - cbn. lia.
  - exact S2.
  - left. reflexivity.
  - do 6 eexists. split; [exact E|]. split; [exact It|]. split; [exact Va|]. split; [exists (PLeaf p m); exact Ba|].
    split; [rewrite (wf_commit Release a _ Ba); reflexivity|]. split; [exact Vo|]. split; [reflexivity|]. split; [vm_compute; reflexivity|].
    split; [exact M|]. intros [t' [_ [_ [X P]]]]. cbn [mb_cross_section mb_depth a] in X, P.
    pose proof (flatten_shallow _ _ _ P) as Q. rewrite <- X in Q. inversion Q as [|? ? _ Q2]. inversion Q2 as [|? ? Q1 _]. cbn in Q1. lia.
  - exfalso. apply N. split; [|split; reflexivity]. exists [(7, PConc p)]. split; [reflexivity|exact S1].
Qed.
(** The operations on what is held, as in C78. *)
Lemma c125_operations : forall (H : Hasher) md md' src rng t c L L' b b'
  (valid : valid_source src) (made : try_commit src rng = Ret (Ok t)) (tree_id : tree_commit_id md' t = Ret c)
  (held : reception md c L b) (held' : reception md c L' b'),
  ((exists b2 n, merge_reveal md b b' = Ret (b2, Ok n) /\
      forall p m, In (p, m) (known_leaves (mb_cross_section b2)) <->
        In (p, m) (known_leaves (mb_cross_section b)) \/ In (p, m) (known_leaves (mb_cross_section b'))) /\
   (forall p m, In (p, m) (known_leaves (mb_cross_section b)) ->
      exists pf, to_merkle_proof md b p = Ret (Ok pf) /\ to_merkle_proof md (block_of_tree t) p = Ret (Ok pf) /\
        convolve md pf p m = Ret (Ok c)) /\
   (forall p, ~ In p (map fst (known_leaves (mb_cross_section b))) -> to_merkle_proof md b p = Ret (Err p))) \/
  collision_in (L ++ L' ++ tree_pre t).
Proof.
  intros H md md' src rng t c L L' b b' V E It R R'.
  destruct (session_or_collision H md md' src rng t c L b V E It R) as [[K [Q S]]|K].
  2: { right. eapply coll_incl; [|exact K]. intros x HI. rewrite !in_app_iff in *. tauto. }
  destruct (session_or_collision H md md' src rng t c L' b' V E It R') as [[K' [Q' S']]|K'].
  2: { right. eapply coll_incl; [|exact K']. intros x HI. rewrite !in_app_iff in *. tauto. }
  destruct (c78_operations H md md' src rng t c K K' b b' V E It S S') as [(_ & A)|C]; [left; exact A|right].
  eapply coll_incl; [|exact C]. intros x HI. rewrite !in_app_iff in *. destruct HI as [HI|[HI|HI]]; [apply Q in HI|apply Q' in HI|]; tauto.
Qed.
(** The check refuses no well-formed block, and a well-formed block of the commitment adds all its messages. *)
Lemma c125_accepts : forall (H : Hasher) md md' src rng t c L b bs o po
  (valid : valid_source src) (made : try_commit src rng = Ret (Ok t)) (tree_id : tree_commit_id md' t = Ret c)
  (held : reception md c L b) (received : dec c_merkle_block bs = Some (o, [])) (well_formed : block_tree o po)
  (related : block_commit_id md o = Ret c),
  acceptable o /\
  ((exists b' n, merge_reveal md b o = Ret (b', Ok n) /\
      forall p m, In (p, m) (known_leaves (mb_cross_section b')) <->
        In (p, m) (known_leaves (mb_cross_section b)) \/ In (p, m) (known_leaves (mb_cross_section o))) \/
   collision_in (L ++ pcommit_pre (mb_depth o) (mb_cofactor o) po ++ tree_pre t)).
Proof.
  intros H md md' src rng t c L b bs o po V E It R D B Io. pose proof B as [HD [_ [X P]]].
  assert (Hs : heights_sum (mb_depth o) (mb_cross_section o) = (2 ^ N.of_nat (mb_depth o))%N).
  { rewrite X, (heights_flatten _ _ _ P), Nat.sub_0_r. reflexivity. }
  assert (Sh : shallow_nodes (mb_depth o) (mb_cross_section o)) by (rewrite X; exact (flatten_shallow _ _ _ P)).
  split.
  - split; [exact Sh|]. rewrite Hs. apply N.pow_lt_mono_r; lia.
  - assert (Ro : reception md c (pcommit_pre (mb_depth o) (mb_cofactor o) po) o).
    { apply (rc_block md c bs o po []); [exact D|exact Io|exact Sh|intros _; exact Hs|rewrite app_nil_r; exact X|exact (pwf_loose_of _ _ _ P)]. }
    destruct (c125_operations H md md' src rng t c _ _ b o V E It R Ro) as [(A & _)|C]; [left; exact A|right; exact C].
Qed.

(** ** Scripts of adversaries *)
Lemma c125_misled : forall (H : Hasher) md md' src rng t c L b
  (valid : valid_source src) (made : try_commit src rng = Ret (Ok t)) (tree_id : tree_commit_id md' t = Ret c)
  (held : reception md c L b),
  ~ misled md src t c b \/ second_in (tree_pre t) L.
Proof.
  intros H md md' src rng t c L b V E It R.
  destruct (c125_session H md md' src rng t c L b V E It R) as [[L' [Q S]]|K]; [|right; exact K].
  destruct (c112_extract H md md' src rng t c L' b V E It S) as [N|K]; [left; exact N|right].
  eapply second_mono; [apply incl_refl|exact Q|exact K].
Qed.

(** The strings of the tree a block begins with *)
Definition p_first (b : merkle_block) : prog unit :=
  match reread (mb_depth b) (S (mb_depth b)) 0 (mb_cross_section b) with
  | Some (t, _) => if 1 + p_size t <=? 2 * length (mb_cross_section b)
      then Ask s_node_tag (fun th => andthen (andthen (p_hash th (2 ^ N.of_nat (mb_depth b)) 0 t) (p_finish (mb_depth b) (mb_cofactor b))) (fun _ => Done tt))
      else Done tt
  | None => Done tt
  end.
Lemma p_first_modest b n : 162 <= n -> modest n (2 * length (mb_cross_section b) + 2) (p_first b).
Proof.
  intros N. unfold p_first. destruct (reread _ _ _ _) as [[t xs]|]; [|exact I].
  destruct (Nat.leb_spec (1 + p_size t) (2 * length (mb_cross_section b))) as [L'|]; [|exact I].
  apply (modest_mono n _ (S (p_size t + 2 + 0))); [lia|].
  split; [eapply Nat.le_trans; [apply tag_length|exact N]|]. intros th. apply modest_andthen; [|intros _; exact I].
  apply modest_andthen; [apply p_hash_modest, N|]. intros r. apply p_finish_modest, N.
Qed.
Lemma p_first_asked H b t rest : mb_cross_section b = flatten 0 t ++ rest -> pwf_loose (mb_depth b) 0 t ->
  incl (@pcommit_pre H (mb_depth b) (mb_cofactor b) t) (asked H (p_first b)).
Proof.
  intros E W. unfold p_first. rewrite E at 1. rewrite reread_flatten; [|lia|exact W].
  assert (L : 1 + p_size t <= 2 * length (mb_cross_section b)).
  { rewrite E, app_length. pose proof (p_size_flatten t 0). lia. }
  rewrite (proj2 (Nat.leb_le _ _) L).
  intros s. unfold pcommit_pre. cbn [asked]. rewrite !asked_andthen, p_hash_exec. cbn [p_finish asked app In].
  rewrite !in_app_iff. cbn [In]. intros [<-|[<-|[<-|I]]]; [tauto|tauto|right; left; right; right; left; reflexivity|].
  right; left; left. apply p_hash_asked, I.
Qed.
Definition p_taken (bs : list byte) : prog unit :=
  match dec c_merkle_block bs with Some (b, []) => p_first b | _ => Done tt end.
Fixpoint p_tape (s : script) : prog unit :=
  match s with
  | ScBlock bs => p_taken bs
  | ScProof bs pid msg => p_opened bs pid msg
  | ScConceal s _ | ScExtract s _ => p_tape s
  | ScMerge s1 s2 => andthen (p_tape s1) (fun _ => p_tape s2)
  | ScFeed s bs => andthen (p_tape s) (fun _ => p_taken bs)
  | ScPath s bs pid msg => andthen (p_tape s) (fun _ => p_opened bs pid msg)
  end.
Lemma p_taken_modest bs n : 162 <= n -> modest n (length bs) (p_taken bs).
Proof.
  intros N. unfold p_taken. destruct (dec c_merkle_block bs) as [[b [|x r]]|] eqn:D; [|exact I|exact I].
  apply (law_can _ _ c_merkle_block_lawful) in D as [-> _]. rewrite app_nil_r.
  eapply modest_mono; [|apply p_first_modest, N]. rewrite c64_block. destruct (mb_entropy b); lia.
Qed.
Lemma p_tape_modest s n : 162 <= n -> modest n (traffic s) (p_tape s).
Proof.
  intros N. induction s as [bs|bs pid msg|s IH ids|s1 IH1 s2 IH2|s IH bs|s IH bs pid msg|s IH pid]; cbn [p_tape traffic].
  - apply p_taken_modest, N.
  - apply p_opened_modest, N.
  - exact IH.
  - apply modest_andthen; [exact IH1|intros _; exact IH2].
  - apply modest_andthen; [exact IH|intros _; apply p_taken_modest, N].
  - apply modest_andthen; [exact IH|intros _; apply p_opened_modest, N].
  - exact IH.
Qed.
Lemma p_taken_asked H bs b t rest : dec c_merkle_block bs = Some (b, []) ->
  mb_cross_section b = flatten 0 t ++ rest -> pwf_loose (mb_depth b) 0 t ->
  incl (@pcommit_pre H (mb_depth b) (mb_cofactor b) t) (asked H (p_taken bs)).
Proof. intros D X W. unfold p_taken. rewrite D. exact (p_first_asked H b t rest X W). Qed.
Lemma other_commits (H : Hasher) md b o b' r : merge_reveal md b o = Ret (b', r) -> exists x, block_commit_id md o = Ret x.
Proof. unfold merge_reveal. intros E. apply bind_inv in E as [y [_ E]]. apply bind_inv in E as [x [E _]]. exists x. exact E. Qed.
Lemma tape_reception H md c s b : @receives H md c s b -> exists L, @reception H md c L b /\ incl L (asked H (p_tape s)).
Proof.
  induction 1 as [bs b D E Sh Hs|bs pf pid msg b D C E|s b ids b' r S [L [IH I]] E|s1 s2 b1 b2 b' r S1 [L1 [IH1 I1]] S2 [L2 [IH2 I2]] E
    |s b bs o b' r S [L [IH I]] D Ac E|s b bs pf pid msg b' r S [L [IH I]] D E|s b p m pf b' S [L [IH I]] K E1 E2]; cbn [p_tape].
  - destruct (@c51_prefix H md b c (proj2 (law_can _ _ c_merkle_block_lawful _ _ _ D)) E) as (pt & rest & X & W & _).
    eexists. split; [eapply rc_block; eassumption|eapply p_taken_asked; eassumption].
  - eexists. split; [eapply rc_proof; eassumption|apply p_opened_asked; assumption].
  - exists L. split; [eapply rc_conceal; eassumption|exact I].
  - eexists. split; [eapply rc_merge; [exact IH1|exact IH2|exact E]|]. rewrite asked_andthen. apply incl_app; [apply incl_appl, I1|apply incl_appr, I2].
  - destruct (other_commits _ _ _ _ _ _ E) as [x Io].
    destruct (@c51_prefix H md o x (proj2 (law_can _ _ c_merkle_block_lawful _ _ _ D)) Io) as (pt & rest & X & W & _).
    eexists. split; [eapply rc_feed; [exact IH|exact D|exact Ac|exact X|exact W|exact E]|]. rewrite asked_andthen.
    apply incl_app; [apply incl_appl, I|apply incl_appr; eapply p_taken_asked; eassumption].
  - eexists. split; [eapply rc_path; [exact IH|exact D|exact E]|]. rewrite asked_andthen.
    apply incl_app; [apply incl_appl, I|apply incl_appr, p_opened_asked; assumption].
  - exists L. split; [eapply rc_extract; eassumption|exact I].
Qed.
Definition p_spool (k : nat) (s : script) : prog unit := if traffic s <=? k then p_tape s else Done tt.
Lemma p_spool_modest k s n : 162 <= n -> modest n k (p_spool k s).
Proof.
  intros N. unfold p_spool. destruct (Nat.leb_spec (traffic s) k) as [L|]; [|exact I].
  eapply modest_mono; [exact L|apply p_tape_modest, N].
Qed.
Lemma p_spool_asked H k s : traffic s <= k -> asked H (p_spool k s) = asked H (p_tape s).
Proof. intros L. unfold p_spool. rewrite (proj2 (Nat.leb_le _ _) L). reflexivity. Qed.

Lemma c125_script : forall n U q k D made (adversary : prog script)
  (strings : universe n U) (short : 162 <= n) (few : modest n q adversary) (before : made_before D made),
  let K := N.of_nat (length made * (2 * 2 ^ D + 2)) in
  rare U (fun H => let s := exec H adversary in
            traffic s <= k /\ exists src t c md b, committed H made src t c /\ @receives H md c s b /\ @misled H md src t c b)
       (K * (K - 1) + 2 * K * N.of_nat (q + k)) (2 ^ 257).
Proof.
  intros n U q k D made adv UU N M Bf. cbv zeta.
  apply (rare_target n U D made adv (p_spool k) q k); try assumption.
  - intros s. apply p_spool_modest, N.
  - intros H. set (s := exec H adv). intros (Lk & src & t & c & md & b & (rng & md' & I & E & Id) & F & X).
    destruct (made_tree D made src rng t Bf I E) as [V L]. destruct (tape_reception H md c s b F) as [Ls [S Is]].
    destruct (c125_misled H md md' src rng t c Ls b V E Id S) as [Y|Y]; [contradiction|].
    rewrite (p_spool_asked H k s Lk).
    eapply second_mono; [apply (p_made_asked H D made src rng t I E L)|exact Is|exact Y].
Qed.
