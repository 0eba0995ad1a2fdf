(** Theorems C65-C69: what a commitment excludes, merging with untrusted blocks, failing encoders,
    layouts and ids, derive attributes. *)
From Coq Require Import Permutation.
From Verif Require Import Base BaseFacts OrdMap Strict Digest Merkle MpcAtoms MpcTree MpcBlock.
From Verif Require Import SpecHash SpecTree SpecCommit SpecFull SpecValid SpecDerived SpecBlock.
From Verif Require Import HashFacts TreeFacts ConcealProofs BlockInv PathProofs MergeProofs MpcTreeProofs DerivedProofs.
From Verif Require Import PrefixProofs UniqueProofs PoisonProofs TheoremsMpc TheoremsBlock TheoremsMore TheoremsExt.
From Verif Require Import Engine EngineIo SpecMerkle SpecCodec SpecEngine SpecDerive EngineProofs MerkleProofs TheoremsMisc.
Local Open Scope nat_scope.

(** ** C65 *)
Lemma path_tree_at path : forall pos p m D d o, d + length path = D -> (pos < 2 ^ N.of_nat (length path))%N ->
  In ((o + pos)%N, (p, m)) (pleaves_at D d o (path_tree path pos p m)).
Proof.
  induction path as [|h r IH]; intros pos p m D d o E L.
  - left. cbn in L. replace (o + pos)%N with o by lia. reflexivity.
  - cbn [length] in E, L. rewrite Nat2N.inj_succ, N.pow_succ_r' in L. cbn [path_tree].
    assert (X : D - S d = length r) by lia.
    destruct (2 ^ N.of_nat (length r) <=? pos)%N eqn:Q; cbn [pleaves_at].
    + apply N.leb_le in Q. rewrite X.
      replace (o + pos)%N with (o + 2 ^ N.of_nat (length r) + (pos - 2 ^ N.of_nat (length r)))%N by lia.
      apply IH; lia.
    + apply N.leb_gt in Q. apply in_or_app. left. apply IH; lia.
Qed.
Lemma proof_leaf_at {H : Hasher} md pf p m c : valid_proof pf -> convolve md pf p m = Ret (Ok c) ->
  In (mp_pos pf, (p, m)) (pleaves_at (length (mp_path pf)) 0 0 (proof_tree pf p m)).
Proof.
  intros V C. destruct (convolve_inv _ _ _ _ _ V C) as [L [_ [P _]]].
  destruct (pos_spec p (mp_cofactor pf) _ L) as [E B]. rewrite <- E, <- P in B.
  apply (path_tree_at (mp_path pf) (mp_pos pf) p m _ 0 0 eq_refl B).
Qed.

Lemma c65_parameters : forall (H : Hasher) md1 md2 pf1 pf2 p1 m1 p2 m2 c
  (valid1 : valid_proof pf1) (valid2 : valid_proof pf2)
  (conv1 : convolve md1 pf1 p1 m1 = Ret (Ok c)) (conv2 : convolve md2 pf2 p2 m2 = Ret (Ok c)),
  (length (mp_path pf1) = length (mp_path pf2) /\ mp_cofactor pf1 = mp_cofactor pf2 /\
   mp_method pf1 = mp_method pf2 /\ (mp_pos pf1 = mp_pos pf2 -> pf1 = pf2 /\ p1 = p2 /\ m1 = m2)) \/
  collision_in (proof_pre pf1 p1 m1 ++ proof_pre pf2 p2 m2).
Proof.
  intros H md1 md2 pf1 pf2 p1 m1 p2 m2 c V1 V2 C1 C2.
  destruct (convolve_inv _ _ _ _ _ V1 C1) as [L1 [B1 [P1 E1]]]. destruct (convolve_inv _ _ _ _ _ V2 C2) as [L2 [B2 [P2 E2]]].
  destruct (pcommit_inj (length (mp_path pf1)) (length (mp_path pf2)) (mp_cofactor pf1) (mp_cofactor pf2)
             (proof_tree pf1 p1 m1) (proof_tree pf2 p2 m2)) as [[ED [EC C]]|C]; try assumption.
  - congruence.
  - left. split; [exact ED|split; [exact EC|split; [apply method_eq|]]]. intros PP.
    unfold proof_tree in C. rewrite PP in C.
    destruct (path_compat_path _ _ _ _ _ _ _ _ _ ED C) as [EP [Ep EM]]. split; [|split; assumption].
    destruct pf1, pf2. cbn in *. subst. f_equal. apply method_eq.
  - right. exact C.
Qed.

Lemma all_or {A} (P : A -> Prop) (C : Prop) xs : (forall x, In x xs -> P x \/ C) -> (forall x, In x xs -> P x) \/ C.
Proof.
  induction xs as [|a xs IH]; intros K; [left; intros x []|].
  destruct (K a (or_introl eq_refl)) as [Pa|Q]; [|right; exact Q].
  destruct IH as [F|Q]; [intros x I; apply K; right; exact I| |right; exact Q].
  left. intros x [<-|I]; [exact Pa|exact (F x I)].
Qed.
Lemma NoDup_map_on {A B C} (f : A -> B) (g : A -> C) xs :
  (forall x y, In x xs -> In y xs -> g x = g y -> f x = f y) -> NoDup (map f xs) -> NoDup (map g xs).
Proof.
  induction xs as [|a xs IH]; intros K N; [constructor|]. cbn [map] in *. apply NoDup_cons_iff in N as [N1 N2].
  constructor; [|apply IH; [intros x y I J; apply K; right; assumption|exact N2]].
  intros I. apply in_map_iff in I as [y [E I]]. apply N1. apply in_map_iff. exists y. split; [|exact I].
  apply K; [right; exact I|left; reflexivity|exact E].
Qed.

Lemma c65_capacity : forall (H : Hasher) c (xs : list (merkle_proof * (bytes32 * bytes32)))
  (proofs : Forall (fun x => valid_proof (fst x) /\
                             exists md, convolve md (fst x) (fst (snd x)) (snd (snd x)) = Ret (Ok c)) xs)
  (distinct : NoDup (map (fun x => fst (snd x)) xs)),
  (forall x, In x xs -> (N.of_nat (length xs) <= 2 ^ N.of_nat (length (mp_path (fst x))))%N) \/
  collision_in (concat (map (fun x => proof_pre (fst x) (fst (snd x)) (snd (snd x))) xs)).
Proof.
  intros H c xs F N. rewrite Forall_forall in F.
  set (pre := fun x : merkle_proof * (bytes32 * bytes32) => proof_pre (fst x) (fst (snd x)) (snd (snd x))).
  assert (PI : forall x, In x xs -> incl (pre x) (concat (map pre xs))).
  { intros x I y J. apply in_concat. exists (pre x). split; [apply in_map; exact I|exact J]. }
  set (R := fun x y : merkle_proof * (bytes32 * bytes32) => length (mp_path (fst x)) = length (mp_path (fst y)) /\
      (mp_pos (fst x) = mp_pos (fst y) -> fst (snd x) = fst (snd y))).
  assert (K : (forall x, In x xs -> forall y, In y xs -> R x y) \/ collision_in (concat (map pre xs))).
  { apply (all_or (fun x => forall y, In y xs -> R x y)). intros x Ix. apply (all_or (R x)). intros y Iy.
    destruct (F x Ix) as [Vx [mx Cx]]. destruct (F y Iy) as [Vy [my Cy]].
    destruct (c65_parameters _ _ _ _ _ _ _ _ _ _ Vx Vy Cx Cy) as [[ED [_ [_ P]]]|Q].
    - left. split; [exact ED|]. intros E. exact (proj1 (proj2 (P E))).
    - right. eapply coll_incl; [|exact Q]. apply incl_app; [exact (PI x Ix)|exact (PI y Iy)]. }
  destruct K as [K|K]; [left|right; exact K]. intros x Ix.
  rewrite <- (map_length (fun y => mp_pos (fst y)) xs). apply NoDup_bound.
  - apply (NoDup_map_on (fun x => fst (snd x))); [|exact N]. intros a b Ia Ib E. exact (proj2 (K a Ia b Ib) E).
  - intros q I. apply in_map_iff in I as [y [<- Iy]]. destruct (F y Iy) as [Vy [my Cy]].
    destruct (convolve_inv _ _ _ _ _ Vy Cy) as [L [_ [P _]]]. rewrite (proj1 (K x Ix y Iy)), P.
    destruct (pos_spec (fst (snd y)) (mp_cofactor (fst y)) _ L) as [E B]. rewrite E. exact B.
Qed.

Lemma c65_exclusion : forall (H : Hasher) md md' b t q p' m' pf p m c
  (wf : block_tree b t) (validp : valid_proof pf)
  (block_id : block_commit_id md b = Ret c) (conv : convolve md' pf p m = Ret (Ok c))
  (leaf : In (q, (p', m')) (pleaves_at (mb_depth b) 0 0 t))
  (slot : q = s_pos p (mb_cofactor b) (mb_depth b)),
  (p' = p /\ m' = m) \/ collision_in (pcommit_pre (mb_depth b) (mb_cofactor b) t ++ proof_pre pf p m).
Proof.
  intros H md md' b t q p' m' pf p m c B V I C L Q. rewrite (wf_commit md b t B) in I. pose proof B as [B1 [B2 [_ B4]]].
  destruct (convolve_inv _ _ _ _ _ V C) as [Lp [Bp [P E]]].
  destruct (pcommit_inj (mb_depth b) (length (mp_path pf)) (mb_cofactor b) (mp_cofactor pf) t (proof_tree pf p m))
    as [[ED [EC K]]|K]; try assumption; [congruence|left|right; exact K].
  pose proof (proof_leaf_at _ _ _ _ _ V C) as J.
  destruct (pos_spec p (mp_cofactor pf) _ Lp) as [PE _]. rewrite P, PE, <- EC, <- ED, <- Q in J.
  assert (W : pwf (mb_depth b) 0 (proof_tree pf p m)) by (apply path_tree_pwf; symmetry; exact ED).
  pose proof (compat_leaf_at _ _ _ _ _ _ _ _ _ K B4 W L J) as X. split; congruence.
Qed.

(** ** C66 *)
Lemma flatten_valid D d t : D <= 31 -> pwf D d t -> Forall valid_tree_node (flatten d t).
Proof.
  intros L. revert d. induction t as [h|p m|l IHl r IHr]; intros d W; cbn [flatten pwf] in *.
  - constructor; [cbn; lia|constructor].
  - constructor; [exact I|constructor].
  - destruct W. apply Forall_app. split; auto.
Qed.
Lemma c66_poison_refuted : forall (H : Hasher) b p m
  (wf : wf_block b) (entropy : match mb_entropy b with Some e => (e < 2 ^ 64)%N | None => True end)
  (deep : 2 <= mb_depth b),
  exists other b' n c, valid_block other /\ block_commit_id Release b = Ret c /\
    merge_reveal Release b other = Ret (b', Ok n) /\ valid_block b' /\ block_commit_id Release b' = Ret c /\
    known_leaves (mb_cross_section b') = known_leaves (mb_cross_section b) ++ [(p, m)].
Proof.
  intros H b p m [t B] En L. pose proof B as [B1 [B2 [B3 B4]]]. set (D := mb_depth b) in *.
  set (z := b32_fill x00). set (F := forged z p m D).
  assert (LD : 2 <= D <= 31) by lia.
  destruct (forged_separated z p m D LD) as [S1 [S2 [S3 S4]]].
  pose proof (forged_length z p m D LD) as FL. pose proof (flatten_length_sp D 0 t B4) as TL.
  unfold sp in TL. rewrite Nat.sub_0_r in TL.
  assert (P30 : (1 < 2 ^ 30)%N) by reflexivity.
  set (other := MBlock (mb_method b) D (mb_cofactor b) (flatten 0 t ++ ConcealedNode 1 z :: F) None).
  set (b' := with_cross_section b (flatten 0 t ++ F) (mb_entropy b)).
  set (c := pcommit D (mb_cofactor b) t).
  assert (I0 : block_commit_id Release b = Ret c) by exact (wf_commit Release b t B).
  assert (I1 : block_commit_id Release other = Ret c) by exact (commit_suffix other t (ConcealedNode 1 z :: F) B1 B4 eq_refl S3 S4).
  assert (I2 : block_commit_id Release b' = Ret c) by exact (commit_suffix b' t F B1 B4 eq_refl S1 S2).
  assert (VT : Forall valid_tree_node (flatten 0 t)) by (apply (flatten_valid D); assumption).
  assert (VF : Forall valid_tree_node F) by (apply forged_valid; lia).
  assert (NE : 1 <= length (flatten 0 t)).
  { pose proof (flatten_nonempty 0 t). destruct (flatten 0 t); [congruence|cbn; lia]. }
  assert (Len : length (flatten 0 t ++ F) = length (flatten 0 t) + length F) by apply app_length.
  assert (V1 : valid_block other).
  { split; [exact B1|split; [exact B2|split; [|split; [|exact I]]]].
    - cbn [other mb_cross_section]. rewrite app_length. cbn [length]. subst F. lia.
    - apply Forall_app. split; [exact VT|]. constructor; [cbn; lia|exact VF]. }
  assert (V2 : valid_block b').
  { split; [exact B1|split; [exact B2|split; [|split; [|exact En]]]].
    - cbn [b' with_cross_section mb_cross_section]. rewrite Len. subst F. lia.
    - apply Forall_app. split; [exact VT|exact VF]. }
  assert (NN : forall (A : Type) (x y : A), match flatten 0 t ++ F with [] => x | _ :: _ => y end = y).
  { intros A x y. destruct (flatten 0 t) as [|n0 r0]; [cbn in NE; lia|reflexivity]. }
  exists other, b', (N.of_nat (length (flatten 0 t ++ F)) mod 2 ^ 16)%N, c.
  split; [exact V1|split; [exact I0|split; [|split; [exact V2|split; [exact I2|]]]]].
  - unfold merge_reveal. rewrite I0, I1. cbn [bind]. rewrite b32_eqb_refl. cbn [negb].
    cbn [other mb_cross_section]. rewrite B3. fold D. rewrite merge_loop_suffix by lia. cbn [bind tl].
    rewrite NN. cbv zeta. fold b'.
    replace (assert (N.of_nat (length (flatten 0 t ++ F)) <? u32_lim)%N) with (Ret tt).
    2: { unfold assert. replace (_ <? u32_lim)%N with true; [reflexivity|]. symmetry. apply N.ltb_lt. rewrite Len.
         unfold u32_lim. subst F. lia. }
    cbn [bind]. destruct (span_sum_total D (flatten 0 t ++ F) 0) as [s Es]. rewrite Es. cbn [bind].
    apply span_sum_release in Es; [|exact B1|apply Forall_app; split; assumption|reflexivity].
    rewrite N.add_0_l, heights_app, (heights_flatten D 0 t B4), Nat.sub_0_r in Es.
    unfold F in Es at 1. rewrite forged_heights in Es by lia.
    replace (2 ^ N.of_nat D + 2 ^ 32)%N with (2 ^ N.of_nat D + 1 * 2 ^ 32)%N in Es by lia.
    rewrite N.mod_add in Es by discriminate.
    rewrite N.mod_small in Es by (apply N.pow_lt_mono_r; lia).
    replace (assert (s =? mb_width_limit b)%N) with (Ret tt).
    2: { unfold assert, mb_width_limit, width_of. fold D. rewrite Es, N.eqb_refl. reflexivity. }
    cbn [bind]. rewrite I2. cbn [bind]. unfold assert. rewrite b32_eqb_refl. reflexivity.
  - cbn [b' with_cross_section mb_cross_section]. rewrite B3, known_leaves_app. f_equal.
    unfold F, forged. cbn [known_leaves]. rewrite known_leaves_app, desc_leaves, alternate_leaves. reflexivity.
Qed.

Lemma heights_zero D xs : Forall (fun n => match n with ConcealedNode d _ => d <= D | _ => True end) xs ->
  heights_sum D xs = 0%N -> xs = [].
Proof.
  intros F E. destruct F as [|n xs Hn F]; [reflexivity|exfalso]. cbn [heights_sum] in E.
  destruct n as [d h|p m]; cbn [height] in E; [|lia].
  replace (d <=? D) with true in E by (symmetry; apply Nat.leb_le; exact Hn).
  pose proof (N.pow_nonzero 2 (N.of_nat (D - d)) ltac:(discriminate)). lia.
Qed.
Lemma loose_tight D d t : pwf_loose D d t ->
  Forall (fun n => match n with ConcealedNode d _ => d <= D | _ => True end) (flatten d t) -> pwf D d t.
Proof.
  revert d; induction t as [h|p m|l IHl r IHr]; intros d W F; cbn [flatten pwf pwf_loose] in *.
  - apply Forall_cons_iff in F as [F _]. exact F.
  - exact W.
  - apply Forall_app in F as [F1 F2]. destruct W. auto.
Qed.

(** With an exact sum of the spans the leaves of a merged block are those of the tree. *)
Lemma exact_vouches {H : Hasher} md md' b src rng t c : valid_block b -> valid_source src ->
  try_commit src rng = Ret (Ok t) -> block_commit_id md b = Ret c -> tree_commit_id md' t = Ret c ->
  heights_sum (mb_depth b) (mb_cross_section b) = (2 ^ N.of_nat (mb_depth b))%N ->
  Forall (fun n => match n with ConcealedNode d _ => d <= mb_depth b | _ => True end) (mb_cross_section b) ->
  (forall p m, In (p, m) (known_leaves (mb_cross_section b)) -> In (p, m) (ms_messages src)) \/
  exists pt, block_tree b pt /\ collision_in (pcommit_pre (mb_depth b) (mb_cofactor b) pt ++ tree_pre t).
Proof.
  intros Vb V E Ib It Hs F. destruct (c51_vouches H md md' b src rng t c Vb V E Ib It) as [pt [rest [X [W K]]]].
  rewrite X in F. apply Forall_app in F as [F1 F2]. pose proof (loose_tight _ _ _ W F1) as W'.
  rewrite X, heights_app, (heights_flatten _ _ _ W'), Nat.sub_0_r in Hs.
  assert (R : rest = []) by (apply (heights_zero (mb_depth b)); [exact F2|lia]). subst rest. rewrite app_nil_r in X.
  destruct K as [[_ [_ K]]|K].
  - left. intros p m I. rewrite X, known_leaves_flatten, <- (pleaves_at_leaves (mb_depth b) 0 0) in I.
    apply in_map_iff in I as [[q e] [Q I]]. cbn in Q. subst e. exact (proj1 (K q p m I)).
  - right. exists pt. split; [|exact K]. destruct Vb as [V1 [V2 _]]. split; [exact V1|split; [exact V2|split; assumption]].
Qed.
Lemma c66_debug : forall (H : Hasher) md src rng t b other b' n c
  (valid : valid_source src) (made : try_commit src rng = Ret (Ok t)) (tree_id : tree_commit_id md t = Ret c)
  (validb : valid_block b) (valido : valid_block other) (own_id : block_commit_id Debug b = Ret c)
  (merged : merge_reveal Debug b other = Ret (b', Ok n)),
  (forall p m, In (p, m) (known_leaves (mb_cross_section b')) -> In (p, m) (ms_messages src)) \/
  exists pt, block_tree b' pt /\ collision_in (pcommit_pre (mb_depth b') (mb_cofactor b') pt ++ tree_pre t).
Proof.
  intros H md src rng t b other b' n c V E It Vb Vo Ib M.
  destruct (c16_merge_any H Debug b other b' n M) as [c' [A1 [_ [A3 _]]]].
  pose proof (c16_representable H Debug b other b' n Vb Vo M) as Vb'.
  destruct (c16_heights_debug H b other b' n M) as [Hs F].
  apply (exact_vouches Debug md b' src rng t c Vb' V E); [congruence|exact It|exact Hs|exact F].
Qed.
Lemma c66_exact : forall (H : Hasher) md md' src rng t b other b' n c
  (valid : valid_source src) (made : try_commit src rng = Ret (Ok t)) (tree_id : tree_commit_id md t = Ret c)
  (validb : valid_block b) (valido : valid_block other) (own_id : block_commit_id md' b = Ret c)
  (merged : merge_reveal md' b other = Ret (b', Ok n))
  (sum : heights_sum (mb_depth b') (mb_cross_section b') = (2 ^ N.of_nat (mb_depth b'))%N)
  (shallow : Forall (fun x => match x with ConcealedNode d _ => d <= mb_depth b' | _ => True end) (mb_cross_section b')),
  (forall p m, In (p, m) (known_leaves (mb_cross_section b')) -> In (p, m) (ms_messages src)) \/
  exists pt, block_tree b' pt /\ collision_in (pcommit_pre (mb_depth b') (mb_cofactor b') pt ++ tree_pre t).
Proof.
  intros H md md' src rng t b other b' n c V E It Vb Vo Ib M Hs F.
  destruct (c16_merge_any H md' b other b' n M) as [c' [A1 [_ [A3 _]]]].
  pose proof (c16_representable H md' b other b' n Vb Vo M) as Vb'.
  apply (exact_vouches md' md b' src rng t c Vb' V E); [congruence|exact It|exact Hs|exact F].
Qed.

(** ** C67 *)
Lemma commit_io_release {H : Hasher} {A} tag idty t f (write : A -> io) v : has_fqn t f ->
  commit_id Release (ce_io tag idty t write) v = Ret (HASH (s_pre tag (fst (write v)))).
Proof.
  intros ->. unfold commit_id, commit, ce_io, ce_encode, ce_tag, commit_to_serialized_io, commitment_fqn.
  cbn [st_name bind debug_assert st_lib]. unfold push_step. cbn [engine_new en_layout length Nat.ltb Nat.leb bind].
  unfold inner_commit_io. cbn. rewrite <- app_assoc. reflexivity.
Qed.
Lemma c67_succeeding : forall (H : Hasher) A md tag idty (T : typed A) v,
  commit md (ce_io tag idty (ty T) (fun v => (enc (ty_codec T) v, true))) v = commit md (derive_strict tag idty T) v.
Proof.
  intros H A md tag idty T v. unfold commit, ce_io, derive_strict, ce_encode, ce_tag, commit_to_serialized_io, commit_to_serialized.
  destruct (commitment_fqn (ty T)) as [f|]; [|reflexivity]. cbn [bind].
  destruct (debug_assert md _); [|reflexivity]. cbn [bind]. destruct (debug_assert md _); [|reflexivity]. cbn [bind].
  destruct (push_step _ _) as [e|]; [|reflexivity]. cbn [bind]. unfold inner_commit_io, inner_commit_to.
  destruct (debug_assert md _); [|reflexivity]. cbn [bind fst snd]. destruct md; reflexivity.
Qed.
Lemma c67_debug : forall (H : Hasher) A tag idty t (write : A -> io) v
  (fails : snd (write v) = false), forall e, commit Debug (ce_io tag idty t write) v <> Ret e.
Proof.
  intros H A tag idty t write v F e. unfold commit, ce_io, ce_encode, ce_tag, commit_to_serialized_io.
  destruct (commitment_fqn t) as [f|]; [|discriminate]. cbn [bind].
  destruct (debug_assert Debug _); [|discriminate]. cbn [bind]. destruct (debug_assert Debug _); [|discriminate]. cbn [bind].
  destruct (push_step _ _) as [e'|]; [|discriminate]. cbn [bind]. unfold inner_commit_io.
  destruct (debug_assert Debug _); [|discriminate]. cbn [bind fst]. rewrite F. discriminate.
Qed.
Lemma c67_release : forall (H : Hasher) A B tag idty idty' t t' f f' (write : A -> io) (write' : B -> io) v w
  (name : has_fqn t f) (name' : has_fqn t' f'),
  commit_id Release (ce_io tag idty t write) v = Ret (HASH (s_pre tag (fst (write v)))) /\
  (commit_id Release (ce_io tag idty t write) v = commit_id Release (ce_io tag idty' t' write') w ->
   fst (write v) = fst (write' w) \/ collision_in [s_pre tag (fst (write v)); s_pre tag (fst (write' w))]).
Proof.
  intros H A B tag idty idty' t t' f f' write write' v w N N'. split; [exact (commit_io_release tag idty t f write v N)|].
  rewrite (commit_io_release tag idty t f write v N), (commit_io_release tag idty' t' f' write' w N').
  intros E. injection E as E. destruct (list_eq_dec Byte.byte_eq_dec (fst (write v)) (fst (write' w))) as [X|X]; [left; exact X|right].
  exists (s_pre tag (fst (write v))), (s_pre tag (fst (write' w))). split; [left; reflexivity|]. split; [right; left; reflexivity|].
  split; [|exact E]. intros Y. apply X. exact (s_pre_inj _ _ _ Y).
Qed.
Lemma c67_silent_refuted : forall (H : Hasher) tag idty t f, has_fqn t f ->
  exists (write : list byte -> io) v w c, v <> w /\ snd (write v) = false /\ snd (write w) = false /\
    (forall x, length x <= 1 -> write x = (x, true)) /\
    commit_id Release (ce_io tag idty t write) v = Ret c /\ commit_id Release (ce_io tag idty t write) w = Ret c.
Proof.
  intros H tag idty t f N.
  exists (fun x => (firstn 1 x, length x <=? 1)), [x00; x00], [x00; x01], (HASH (s_pre tag [x00])).
  split; [discriminate|split; [reflexivity|split; [reflexivity|split]]].
  - intros [|a [|b x]] L; [reflexivity|reflexivity|cbn in L; lia].
  - split; exact (commit_io_release tag idty t f _ _ N).
Qed.

(** ** C68 *)
Lemma c68_stream : forall (H : Hasher) md md' tag tag' fs gs e e' bss css
  (fed1 : run md fs (engine_new tag) = Ret e) (fed2 : run md' gs (engine_new tag') = Ret e')
  (bytes1 : Forall2 feeds fs bss) (bytes2 : Forall2 feeds gs css),
  (tag = tag' /\ concat bss = concat css -> digest_finish (engine_finish e) = digest_finish (engine_finish e')) /\
  (digest_finish (engine_finish e) = digest_finish (engine_finish e') ->
   (tag = tag' /\ concat bss = concat css) \/
   collision_in [tag; tag'; s_pre tag (concat bss); s_pre tag' (concat css)]).
Proof.
  intros H md md' tag tag' fs gs e e' bss css R R' F F'.
  rewrite (c34_digest H md tag fs e bss R F), (c34_digest H md' tag' gs e' css R' F'). split; [intros [-> ->]; reflexivity|].
  intros E. destruct (list_eq_dec Byte.byte_eq_dec tag tag') as [<-|T].
  - destruct (list_eq_dec Byte.byte_eq_dec (concat bss) (concat css)) as [X|X]; [left; auto|right].
    exists (s_pre tag (concat bss)), (s_pre tag (concat css)).
    split; [right; right; left; reflexivity|]. split; [right; right; right; left; reflexivity|]. split; [|exact E].
    intros Y. exact (X (s_pre_inj _ _ _ Y)).
  - right. destruct (list_eq_dec Byte.byte_eq_dec (s_pre tag (concat bss)) (s_pre tag' (concat css))) as [X|X].
    + exists tag, tag'. split; [left; reflexivity|]. split; [right; left; reflexivity|]. split; [exact T|].
      exact (proj1 (s_pre_tags _ _ _ _ X)).
    + exists (s_pre tag (concat bss)), (s_pre tag' (concat css)).
      split; [right; right; left; reflexivity|]. split; [right; right; right; left; reflexivity|]. split; [exact X|exact E].
Qed.
Lemma c68_layout_refuted : forall (H : Hasher) md tag h t f, has_fqn t f ->
  exists e1 e2 e3, run md [FHash t h] (engine_new tag) = Ret e1 /\ run md [FMerkle t [h]] (engine_new tag) = Ret e2 /\
    run md [FConcealed t c_b32 h] (engine_new tag) = Ret e3 /\
    into_layout e1 <> into_layout e2 /\ into_layout e1 <> into_layout e3 /\ into_layout e2 <> into_layout e3 /\
    digest_finish (engine_finish e1) = digest_finish (engine_finish e2) /\
    digest_finish (engine_finish e1) = digest_finish (engine_finish e3).
Proof.
  intros H md tag h t f ->. eexists. eexists. eexists.
  split; [destruct md; reflexivity|]. split; [destruct md; reflexivity|]. split; [destruct md; reflexivity|].
  split; [discriminate|]. split; [discriminate|]. split; [discriminate|]. split; reflexivity.
Qed.

(** ** C69 *)
Lemma arg_value_in k args : forall v, arg_value k args = Some v -> In (k, v) args.
Proof.
  induction args as [|[k' v'] r IH]; intros v E; [discriminate|]. cbn [arg_value] in E.
  destruct (String.eqb k' k) eqn:Q; [|right; apply IH; exact E].
  apply String.eqb_eq in Q. subst k'. injection E as ->. left. reflexivity.
Qed.
Lemma arg_value_none k args : arg_value k args = None -> forall v, ~ In (k, v) args.
Proof.
  induction args as [|[k' v'] r IH]; intros E v; [intros []|]. cbn [arg_value] in E.
  destruct (String.eqb k' k) eqn:Q; [discriminate|]. apply String.eqb_neq in Q.
  intros [X|X]; [congruence|exact (IH E v X)].
Qed.
Lemma arg_value_some k args v : NoDup (map fst args) -> In (k, v) args -> arg_value k args = Some v.
Proof.
  induction args as [|[k' v'] r IH]; intros N I; [destruct I|]. cbn [map fst] in N. apply NoDup_cons_iff in N as [N1 N2].
  cbn [arg_value]. destruct I as [I|I].
  - injection I as -> ->. rewrite String.eqb_refl. reflexivity.
  - destruct (String.eqb k' k) eqn:Q; [|apply IH; assumption]. apply String.eqb_eq in Q. subst k'.
    exfalso. apply N1. apply in_map_iff. exists (k, v). split; [reflexivity|exact I].
Qed.
Lemma check_known_iff args : check_known args = Ok tt <->
  NoDup (map fst args) /\ (forall k v, In (k, v) args -> k = "crate" \/ k = "id" \/ k = "strategy")%string.
Proof.
  induction args as [|[k v] r IH]; [split; [intros _; split; [constructor|intros k v []]|reflexivity]|].
  cbn [check_known map fst].
  destruct (String.eqb k attr_crate || String.eqb k attr_id || String.eqb k attr_strategy)%bool eqn:Q.
  - destruct (arg_value k r) as [v'|] eqn:A.
    + split; [discriminate|]. intros [N _]. apply NoDup_cons_iff in N as [N _]. exfalso. apply N.
      apply in_map_iff. exists (k, v'). split; [reflexivity|exact (arg_value_in _ _ _ A)].
    + rewrite IH. split.
      * intros [N K]. split.
        -- constructor; [|exact N]. intros I. apply in_map_iff in I as [[k' v'] [E I]]. cbn in E. subst k'.
           exact (arg_value_none _ _ A _ I).
        -- intros k' v' [E|I]; [|exact (K k' v' I)]. injection E as <- <-.
           apply orb_true_iff in Q as [Q|Q]; [apply orb_true_iff in Q as [Q|Q]|]; apply String.eqb_eq in Q; auto.
      * intros [N K]. apply NoDup_cons_iff in N as [_ N]. split; [exact N|]. intros k' v' I. apply (K k' v'). right. exact I.
  - split; [discriminate|]. intros [_ K]. exfalso. apply orb_false_iff in Q as [Q Q3]. apply orb_false_iff in Q as [Q1 Q2].
    apply String.eqb_neq in Q1, Q2, Q3. destruct (K k v (or_introl eq_refl)) as [X|[X|X]]; auto.
Qed.
Lemma strategy_of_iff p s : strategy_of p = Ok s <-> p = strategy_name s.
Proof.
  unfold strategy_of. split.
  - destruct (String.eqb p "strict") eqn:Q1; [apply String.eqb_eq in Q1; intros E; injection E as <-; exact Q1|].
    destruct (String.eqb p "conceal") eqn:Q2; [apply String.eqb_eq in Q2; intros E; injection E as <-; exact Q2|].
    destruct (String.eqb p "transparent") eqn:Q3; [apply String.eqb_eq in Q3; intros E; injection E as <-; exact Q3|].
    destruct (String.eqb p "merklize") eqn:Q4; [apply String.eqb_eq in Q4; intros E; injection E as <-; exact Q4|].
    discriminate.
  - intros ->. destruct s; reflexivity.
Qed.
Lemma c69_accepts : forall args crate s id,
  container_of args = Ok (ContainerAttr crate s id) <-> attr_says args crate s id.
Proof.
  intros args crate s id. unfold container_of. split.
  - destruct (check_known args) as [[]|] eqn:K; [|discriminate]. apply check_known_iff in K as [K1 K2].
    destruct (arg_value attr_id args) as [i|] eqn:E1; [|discriminate].
    destruct (arg_value attr_strategy args) as [p|] eqn:E2; [|discriminate].
    destruct (strategy_of p) as [s'|] eqn:E3; [|discriminate]. intros E. injection E as <- <- <-.
    apply strategy_of_iff in E3. subst p.
    split; [exact K1|split; [exact K2|split; [exact (arg_value_in _ _ _ E1)|split; [exact (arg_value_in _ _ _ E2)|]]]].
    destruct (arg_value attr_crate args) as [c|] eqn:E4; [left; exact (arg_value_in _ _ _ E4)|right].
    split; [exact (arg_value_none _ _ E4)|reflexivity].
  - intros [K1 [K2 [I1 [I2 I3]]]]. rewrite (proj2 (check_known_iff args) (conj K1 K2)).
    unfold attr_id, attr_strategy. rewrite (arg_value_some _ _ _ K1 I1), (arg_value_some _ _ _ K1 I2).
    rewrite (proj2 (strategy_of_iff (strategy_name s) s) eq_refl). do 2 f_equal. unfold attr_crate.
    destruct I3 as [I3|[I3 ->]]; [rewrite (arg_value_some _ _ _ K1 I3); reflexivity|].
    destruct (arg_value "crate" args) as [c|] eqn:E; [|reflexivity]. exfalso. exact (I3 c (arg_value_in _ _ _ E)).
Qed.
Lemma c69_generates : forall (H : Hasher) A (D : derive_input A) ids args crate s id idty tag md v
  (says : attr_says args crate s id) (resolved : ids id = (idty, tag)),
  exists I, derive_encode D ids args = Ok I /\ ce_tag I = tag /\ ce_idty I = idty /\
  match s with
  | StrategyStrict => forall f, has_fqn (ty (di_self A D)) f -> not_reserved_type (ty (di_self A D)) ->
      commit_id md I v = Ret (HASH (s_pre tag (enc (ty_codec (di_self A D)) v)))
  | StrategyTransparent => forall f, has_fqn (ty (di_inner A D)) f -> not_reserved_type (ty (di_inner A D)) ->
      commit_id md I v = Ret (HASH (s_pre tag (enc (ty_codec (di_inner A D)) (di_as_inner A D v))))
  | StrategyConceal => forall f x y, has_fqn (di_conc_name A D) f ->
      di_conceal A D md v = Ret x -> di_conceal2 A D md x = Ret y ->
      commit_id md I v = Ret (HASH (s_pre tag (enc (di_conc2_codec A D) y)))
  | StrategyMerklize => forall f, has_fqn (di_leaf A D) f -> (N.of_nat (length (di_leaves A D v)) < 2 ^ 32)%N ->
      exists r, merkle_root_of (di_leaves A D v) r /\ commit_id md I v = Ret (HASH (s_pre tag (b32 r)))
  end.
Proof.
  intros H A D ids args crate s id idty tag md v S R. apply c69_accepts in S. unfold derive_encode. rewrite S. cbn [ca_id ca_strategy].
  rewrite R. eexists. split; [reflexivity|]. destruct s; split; try reflexivity; split; try reflexivity; cbv iota.
  - intros f N T. exact (proj1 (c37_strict H A md tag idty _ f v N (fun _ => T))).
  - intros f x y N E1 E2. exact (proj1 (c37_conceal H A _ _ md tag idty _ _ _ _ f v x y N E1 E2)).
  - intros f N T. exact (proj1 (c37_transparent H A _ md tag idty _ _ f v N (fun _ => T))).
  - intros f N L. destruct (c37_merklize H A md tag idty _ _ f v N L) as [r [M [E _]]]. exists r. split; assumption.
Qed.

(** ** C70 *)
Lemma in_dec_unknown b ids : (forall p, In p ids -> In p (known_protocol_ids b)) \/
  exists p, In p ids /\ ~ In p (known_protocol_ids b).
Proof.
  induction ids as [|a ids IH]; [left; intros p []|].
  destruct (in_dec b32_eq_dec a (known_protocol_ids b)) as [I|U]; [|right; exists a; split; [left; reflexivity|exact U]].
  destruct IH as [A|[p [J U]]]; [left|right; exists p; split; [right; exact J|exact U]].
  intros p [<-|J]; [exact I|exact (A p J)].
Qed.
Lemma flatten_shallow D d t : pwf D d t ->
  Forall (fun n => match n with ConcealedNode d _ => d <= D | _ => True end) (flatten d t).
Proof.
  revert d. induction t as [h|p m|l IHl r IHr]; intros d W; cbn [flatten pwf] in *.
  - constructor; [exact W|constructor].
  - constructor; [exact I|constructor].
  - destruct W. apply Forall_app. split; auto.
Qed.
Lemma c70_gate : forall (H : Hasher) md b (valid : valid_block b),
  wf_block b <->
  (exists c, block_commit_id md b = Ret c) /\
  heights_sum (mb_depth b) (mb_cross_section b) = (2 ^ N.of_nat (mb_depth b))%N /\
  Forall (fun x => match x with ConcealedNode d _ => d <= mb_depth b | _ => True end) (mb_cross_section b).
Proof.
  intros H md b V. split.
  - intros [t B]. split; [exists (pcommit (mb_depth b) (mb_cofactor b) t); exact (wf_commit md b t B)|].
    destruct B as [_ [_ [X W]]]. rewrite X. split; [|exact (flatten_shallow _ _ _ W)].
    rewrite (heights_flatten _ _ _ W), Nat.sub_0_r. reflexivity.
  - intros [[c E] [Hs F]]. destruct (c51_prefix H md b c V E) as [t [rest [X [W _]]]].
    rewrite X in F. apply Forall_app in F as [F1 F2]. pose proof (loose_tight _ _ _ W F1) as W'.
    rewrite X, heights_app, (heights_flatten _ _ _ W'), Nat.sub_0_r in Hs.
    assert (R : rest = []) by (apply (heights_zero (mb_depth b)); [exact F2|lia]). subst rest. rewrite app_nil_r in X.
    exists t. destruct V as [V1 [V2 _]]. split; [exact V1|split; [exact V2|split; assumption]].
Qed.
Lemma c70_debug_gate : forall (H : Hasher) b (valid : valid_block b),
  wf_block b <->
  (exists c, block_commit_id Debug b = Ret c) /\
  Forall (fun x => match x with ConcealedNode d _ => d <= mb_depth b | _ => True end) (mb_cross_section b).
Proof.
  intros H b V. split.
  - intros W. apply (c70_gate H Debug b V) in W as [A [_ B]]. split; assumption.
  - intros [[c E] F]. destruct (c51_prefix H Debug b c V E) as [t [rest [X [W [_ [R _]]]]]].
    rewrite (R eq_refl), app_nil_r in X. exists t. destruct V as [V1 [V2 _]]. split; [exact V1|split; [exact V2|split; [exact X|]]].
    apply loose_tight; [exact W|]. rewrite <- X. exact F.
Qed.
Lemma c70_safe : forall (H : Hasher) md b other (wf : wf_block b) (wf' : wf_block other),
  (exists c, block_commit_id md b = Ret c) /\
  (forall ids, exists b' r, conceal_except md b ids = Ret (b', r) /\ wf_block b') /\
  (forall p, count_occ b32_eq_dec (known_protocol_ids b) p <= 1 -> exists r, to_merkle_proof md b p = Ret r) /\
  ((exists b' r, merge_reveal md b other = Ret (b', r) /\ wf_block b') \/
   exists t t', block_tree b t /\ block_tree other t' /\
     collision_in (pcommit_pre (mb_depth b) (mb_cofactor b) t ++ pcommit_pre (mb_depth other) (mb_cofactor other) t')).
Proof.
  intros H md b other W W'. pose proof W as [t B]. pose proof W' as [t' B'].
  split; [eexists; exact (wf_commit md b t B)|]. split; [|split].
  - intros ids. destruct (in_dec_unknown b ids) as [A|[p [I U]]].
    + destruct (c08_conceal H md b ids W A) as [b' [n [c [E [Wb _]]]]]. exists b', (Ok n). split; assumption.
    + destruct (c10_unknown H md b ids p W I U) as [b' [q [c [E [_ [_ [_ [Wb _]]]]]]]]. exists b', (Err q). split; assumption.
  - intros p C. destruct (in_dec b32_eq_dec p (known_protocol_ids b)) as [I|U].
    + unfold known_protocol_ids in I. apply in_map_iff in I as [[p' m] [E I]]. cbn in E. subst p'. pose proof B as [_ [_ [X _]]].
      rewrite X, known_leaves_flatten, <- (pleaves_at_leaves (mb_depth b) 0 0) in I.
      apply in_map_iff in I as [[q e] [Q I]]. cbn in Q. subst e.
      assert (C1 : count_occ b32_eq_dec (known_protocol_ids b) p = 1).
      { assert (0 < count_occ b32_eq_dec (known_protocol_ids b) p); [|lia]. apply count_occ_In.
        unfold known_protocol_ids. rewrite X, known_leaves_flatten, <- (pleaves_at_leaves (mb_depth b) 0 0).
        apply in_map_iff. exists (p, m). split; [reflexivity|]. apply in_map_iff. exists (q, (p, m)). split; [reflexivity|exact I]. }
      destruct (c52_once H md b t p m q B I C1) as [pf [E _]]. exists (Ok pf). exact E.
    + exists (Err p). exact (c10_proof_unknown H md b p W U).
  - pose proof (wf_commit md b t B) as E1. pose proof (wf_commit md other t' B') as E2.
    destruct (b32_eq_dec (pcommit (mb_depth b) (mb_cofactor b) t) (pcommit (mb_depth other) (mb_cofactor other) t')) as [Q|Q].
    + rewrite <- Q in E2. destruct (c13_merge H md b other t t' _ B B' E1 E2) as [[b' [tt' [n [M [Bt _]]]]]|C].
      * left. exists b', (Ok n). split; [exact M|exists tt'; exact Bt].
      * right. exists t, t'. split; [exact B|split; [exact B'|exact C]].
    + left. exists b. eexists. split; [|exact W]. unfold merge_reveal. rewrite E1, E2. cbn [bind].
      destruct (b32_eqb _ _) eqn:X; [apply b32_eqb_eq in X; contradiction|]. reflexivity.
Qed.
Lemma c70_vouched : forall (H : Hasher) md md' b src rng t c
  (wf : wf_block b) (valid : valid_source src) (made : try_commit src rng = Ret (Ok t))
  (block_id : block_commit_id md b = Ret c) (tree_id : tree_commit_id md' t = Ret c),
  (forall p m, In (p, m) (known_leaves (mb_cross_section b)) -> In (p, m) (ms_messages src)) \/
  exists pt, block_tree b pt /\ collision_in (pcommit_pre (mb_depth b) (mb_cofactor b) pt ++ tree_pre t).
Proof.
  intros H md md' b src rng t c [pt B] V E Ib It.
  assert (Vb : valid_block (with_cross_section b (mb_cross_section b) None)).
  { destruct B as [B1 [B2 [B3 B4]]]. split; [exact B1|split; [exact B2|split; [|split; [|exact I]]]]; cbn [with_cross_section mb_cross_section].
    - rewrite B3. pose proof (flatten_length_sp _ _ _ B4) as L. unfold sp in L. rewrite Nat.sub_0_r in L. split.
      + pose proof (flatten_nonempty 0 pt). destruct (flatten 0 pt); [congruence|cbn; lia].
      + assert (2 ^ N.of_nat (mb_depth b) <= 2 ^ 31)%N by (apply N.pow_le_mono_r; lia).
        assert (2 ^ 31 < 2 ^ 32)%N by reflexivity. lia.
    - rewrite B3. apply (flatten_valid (mb_depth b)); assumption. }
  assert (B' : block_tree (with_cross_section b (mb_cross_section b) None) pt) by exact B.
  assert (Ib' : block_commit_id md (with_cross_section b (mb_cross_section b) None) = Ret c).
  { rewrite (wf_commit md _ pt B'), <- Ib, (wf_commit md b pt B). reflexivity. }
  destruct (proj1 (c70_gate H md _ Vb) (ex_intro _ pt B')) as [_ [Hs F]].
  destruct (exact_vouches md md' _ src rng t c Vb V E Ib' It Hs F) as [K|[pt' [P K]]]; [left; exact K|right; exists pt'; split; assumption].
Qed.

(** ** C71 *)
Lemma c71_hash_field : forall (H : Hasher) md md' tag itag fs1 fs2 gs1 gs2 t x y e e' bs cs Lf Lg
  (fed1 : run md (fs1 ++ FHash t (HASH (s_pre itag x)) :: fs2) (engine_new tag) = Ret e)
  (fed2 : run md' (gs1 ++ FHash t (HASH (s_pre itag y)) :: gs2) (engine_new tag) = Ret e')
  (kinds : Forall2 same_kind (fs1 ++ FHash t (HASH (s_pre itag x)) :: fs2) (gs1 ++ FHash t (HASH (s_pre itag y)) :: gs2))
  (same_place : length fs1 = length gs1)
  (bytes1 : Forall2 feeds (fs1 ++ FHash t (HASH (s_pre itag x)) :: fs2) bs)
  (bytes2 : Forall2 feeds (gs1 ++ FHash t (HASH (s_pre itag y)) :: gs2) cs)
  (hashed1 : fields_hashed (fs1 ++ FHash t (HASH (s_pre itag x)) :: fs2) Lf)
  (hashed2 : fields_hashed (gs1 ++ FHash t (HASH (s_pre itag y)) :: gs2) Lg)
  (same : digest_finish (engine_finish e) = digest_finish (engine_finish e')),
  (fs1 = gs1 /\ x = y /\ fs2 = gs2) \/
  collision_in ([s_pre itag x; s_pre itag y] ++ (s_pre tag (concat bs) :: Lf) ++ (s_pre tag (concat cs) :: Lg)).
Proof.
  intros H md md' tag itag fs1 fs2 gs1 gs2 t x y e e' bs cs Lf Lg R R' K LP F F' G G' E.
  destruct (c35_binding H md md' tag _ _ e e' bs cs Lf Lg R R' K F F' G G' E) as [X|C]; [|right; apply coll_app_r; exact C].
  apply app_inv_length in X as [X1 X2]; [|exact LP]. injection X2 as X2 X3.
  destruct (list_eq_dec Byte.byte_eq_dec x y) as [Q|Q]; [left; auto|right]. apply coll_app_l.
  exists (s_pre itag x), (s_pre itag y). split; [left; reflexivity|split; [right; left; reflexivity|split; [|exact X2]]].
  intros Y. exact (Q (s_pre_inj _ _ _ Y)).
Qed.
Lemma ids_inj {H : Hasher} itag xs : forall ys, map (fun x => HASH (s_pre itag x)) xs = map (fun x => HASH (s_pre itag x)) ys ->
  xs = ys \/ collision_in (map (s_pre itag) xs ++ map (s_pre itag) ys).
Proof.
  induction xs as [|x xs IH]; intros [|y ys] E; cbn [map] in E; try discriminate; [left; reflexivity|].
  injection E as E1 E2. destruct (list_eq_dec Byte.byte_eq_dec x y) as [<-|Q].
  - destruct (IH ys E2) as [<-|C]; [left; reflexivity|right]. eapply coll_incl; [|exact C]. cbn [map].
    intros z Z. apply in_app_or in Z as [Z|Z]; apply in_or_app; [left|right]; right; exact Z.
  - right. exists (s_pre itag x), (s_pre itag y). split; [left; reflexivity|split; [apply in_or_app; right; left; reflexivity|]].
    split; [|exact E1]. intros Y. exact (Q (s_pre_inj _ _ _ Y)).
Qed.
Lemma c71_merkle_field : forall (H : Hasher) md md' tag itag fs1 fs2 gs1 gs2 t xs ys e e' bs cs Lf Lg
  (fed1 : run md (fs1 ++ FMerkle t (map (fun x => HASH (s_pre itag x)) xs) :: fs2) (engine_new tag) = Ret e)
  (fed2 : run md' (gs1 ++ FMerkle t (map (fun x => HASH (s_pre itag x)) ys) :: gs2) (engine_new tag) = Ret e')
  (kinds : Forall2 same_kind (fs1 ++ FMerkle t (map (fun x => HASH (s_pre itag x)) xs) :: fs2)
                             (gs1 ++ FMerkle t (map (fun x => HASH (s_pre itag x)) ys) :: gs2))
  (same_place : length fs1 = length gs1)
  (bytes1 : Forall2 feeds (fs1 ++ FMerkle t (map (fun x => HASH (s_pre itag x)) xs) :: fs2) bs)
  (bytes2 : Forall2 feeds (gs1 ++ FMerkle t (map (fun x => HASH (s_pre itag x)) ys) :: gs2) cs)
  (hashed1 : fields_hashed (fs1 ++ FMerkle t (map (fun x => HASH (s_pre itag x)) xs) :: fs2) Lf)
  (hashed2 : fields_hashed (gs1 ++ FMerkle t (map (fun x => HASH (s_pre itag x)) ys) :: gs2) Lg)
  (same : digest_finish (engine_finish e) = digest_finish (engine_finish e')),
  (fs1 = gs1 /\ xs = ys /\ fs2 = gs2) \/
  collision_in ((map (s_pre itag) xs ++ map (s_pre itag) ys) ++ (s_pre tag (concat bs) :: Lf) ++ (s_pre tag (concat cs) :: Lg)).
Proof.
  intros H md md' tag itag fs1 fs2 gs1 gs2 t xs ys e e' bs cs Lf Lg R R' K LP F F' G G' E.
  destruct (c35_binding H md md' tag _ _ e e' bs cs Lf Lg R R' K F F' G G' E) as [X|C]; [|right; apply coll_app_r; exact C].
  apply app_inv_length in X as [X1 X2]; [|exact LP]. injection X2 as X2 X3.
  destruct (ids_inj itag xs ys X2) as [Q|Q]; [left; auto|right]. apply coll_app_l. exact Q.
Qed.

(** ** C39, serde *)
Lemma c39_serde : forall len val,
  (forall v, reserved_from len val v = Ret v -> reserved_deserialize len val (reserved_serialize v) = Ok v) /\
  (forall x v, reserved_deserialize len val x = Ok v -> v = repeat val len /\ reserved_from len val v = Ret v) /\
  (forall x, (exists v, reserved_deserialize len val x = Ok v) <-> x <> SerdeOther).
Proof.
  intros len val. assert (R : reserved_from len val (repeat val len) = Ret (repeat val len)).
  { exact (proj1 (c39_from_array len val _) eq_refl). }
  split; [|split].
  - intros v E. cbn. destruct (list_eq_dec Byte.byte_eq_dec v (repeat val len)) as [->|N]; [reflexivity|].
    rewrite (proj2 (c39_from_array len val v) N) in E. discriminate.
  - intros [| |] v E; try discriminate; injection E as <-; split; reflexivity || exact R.
  - intros [| |]; split; try discriminate; try (intros _; eexists; reflexivity).
    + intros [v E]. discriminate.
    + congruence.
Qed.
