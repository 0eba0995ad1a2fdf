(** C105: forging openings of commitments made beforehand. *)
From Verif Require Import Base BaseFacts OrdMap OrdMapFacts Strict Merkle MpcAtoms MpcTree MpcBlock.
From Verif Require Import SpecHash SpecTree SpecMerkle SpecFull SpecValid SpecFind SpecBlock SpecCommit SpecDerived SpecCount SpecGame SpecTarget.
From Verif Require Import HashFacts TreeFacts ConcealProofs BlockInv PathProofs MergeProofs MpcTreeProofs MerkleProofs DerivedProofs UniqueProofs CountProofs.
From Verif Require Import GameProofs TargetProofs TheoremsMpc TheoremsBlock TheoremsMerkle TheoremsQuery TheoremsExt TheoremsCount TheoremsFind TheoremsGame.
Local Open Scope nat_scope.

(** ** Extraction *)
Section WithHash.
Context {H : Hasher}.

Lemma second_swap L L' : second_in L L' -> second_in L' L.
Proof. intros (x & y & Ix & Iy & N & E). exists y, x. repeat split; auto. Qed.
Lemma second_mono L1 L2 L1' L2' : incl L1 L2 -> incl L1' L2' -> second_in L1 L1' -> second_in L2 L2'.
Proof. intros I I' (x & y & Ix & Iy & N & E). exists x, y. repeat split; auto. Qed.
Lemma second_or L L' x y : In x L -> In y L' -> HASH x = HASH y -> x = y \/ second_in L L'.
Proof.
  intros Ix Iy E. destruct (list_eq_dec Byte.byte_eq_dec x y) as [D|D]; [left; exact D|right]. exists x, y. auto.
Qed.

Lemma phash_second W a : forall d b, phash W d a = phash W d b -> pcompat W d a b \/ second_in (ppre W d a) (ppre W d b).
Proof.
  induction a as [h|p m|l IHl r IHr]; intros d b E.
  - left. exact E.
  - destruct b as [h|p' m'|l' r'].
    + left. symmetry; exact E.
    + destruct (second_or (ppre W d (PLeaf p m)) (ppre W d (PLeaf p' m')) _ _ (or_introl eq_refl) (or_introl eq_refl) E) as [E'|C]; [|right; exact C].
      left. apply s_leaf_inj in E'. exact E'.
    + destruct (second_or (ppre W d (PLeaf p m)) (ppre W d (PBr l' r')) _ _ (or_introl eq_refl) (or_introl eq_refl) E) as [E'|C]; [|right; exact C].
      destruct (s_leaf_branch _ _ _ _ _ _ E').
  - destruct b as [h|p' m'|l' r'].
    + left. symmetry; exact E.
    + destruct (second_or (ppre W d (PBr l r)) (ppre W d (PLeaf p' m')) _ _ (or_introl eq_refl) (or_introl eq_refl) E) as [E'|C]; [|right; exact C].
      symmetry in E'. destruct (s_leaf_branch _ _ _ _ _ _ E').
    + destruct (second_or (ppre W d (PBr l r)) (ppre W d (PBr l' r')) _ _ (or_introl eq_refl) (or_introl eq_refl) E) as [E'|C]; [|right; exact C].
      apply s_branch_inj_children in E' as [E1 E2].
      destruct (IHl _ _ E1) as [C1|C1].
      * destruct (IHr _ _ E2) as [C2|C2]; [left; split; assumption|right].
        eapply second_mono; [| |exact C2]; cbn [ppre]; apply incl_tl, incl_appr, incl_refl.
      * right. eapply second_mono; [| |exact C1]; cbn [ppre]; apply incl_tl, incl_appl, incl_refl.
Qed.
Lemma pcommit_second D D' c c' t t' : D <= 31 -> D' <= 31 -> (c < 2 ^ 16)%N -> (c' < 2 ^ 16)%N ->
  pcommit D c t = pcommit D' c' t' ->
  (D = D' /\ c = c' /\ pcompat (2 ^ N.of_nat D) 0 t t') \/ second_in (pcommit_pre D c t) (pcommit_pre D' c' t').
Proof.
  intros HD HD' Hc Hc' E.
  destruct (second_or (pcommit_pre D c t) (pcommit_pre D' c' t') _ _
    (or_intror (or_intror (or_introl eq_refl))) (or_intror (or_intror (or_introl eq_refl))) E) as [E'|C]; [|right; exact C].
  apply s_commit_inj in E' as [-> [-> E']]; [|lia|lia|assumption|assumption].
  destruct (phash_second _ _ _ _ E') as [C|C]; [left; auto|right].
  eapply second_mono; [| |exact C]; unfold pcommit_pre; apply incl_appr, incl_refl.
Qed.
Lemma tree_pre_commit t : incl (pcommit_pre (mt_depth t) (mt_cofactor t) (tree_full t)) (tree_pre t).
Proof. unfold tree_pre. apply incl_appl, incl_refl. Qed.

Lemma vouches_second D c t pt : good_tree t -> D <= 31 -> (c < 2 ^ 16)%N -> pwf_loose D 0 pt ->
  pcommit D c pt = pcommit (mt_depth t) (mt_cofactor t) (tree_full t) ->
  (D = mt_depth t /\ c = mt_cofactor t /\ forall p m, In (p, m) (pleaves pt) -> In (p, m) (mt_messages t)) \/
  second_in (tree_pre t) (pcommit_pre D c pt).
Proof.
  intros G HD Hc Hw E.
  assert (B16 : (500 < 2 ^ 16)%N) by reflexivity. pose proof (gt_cofactor _ G) as Gc.
  assert (Gc' : (mt_cofactor t < 2 ^ 16)%N) by lia.
  destruct (pcommit_second _ _ _ _ _ _ HD (gt_depth _ G) Hc Gc' E) as [[-> [-> C]]|C].
  2: { right. apply second_swap. eapply second_mono; [apply incl_refl|apply tree_pre_commit|exact C]. }
  unfold tree_full in C.
  pose proof (compat_full_leaves _ (mt_depth t) 0 0 pt (slot t) (slot_is_slot t) (pwf_loose_deep _ _ _ Hw) C) as F.
  cbn [Nat.add] in F.
  assert (G1 : forall l, incl l (pleaves_at (mt_depth t) 0 0 pt) ->
     (forall q p m, In (q, (p, m)) l -> In (p, m) (mt_messages t))
     \/ second_in (tree_pre t) (pcommit_pre (mt_depth t) (mt_cofactor t) pt)).
  { induction l as [|[q [p m]] l IH]; intros I; [left; intros q p m []|].
    destruct IH as [IH|IH]; [intros x Hx'; apply I; right; exact Hx'| |right; exact IH].
    destruct (F q p m (I _ (or_introl eq_refl))) as [R M]. unfold slot in M.
    destruct (om_get N.ltb q (mt_map t)) as [[p' m']|] eqn:Eg.
    - destruct M as [-> ->]. left. intros q' p'' m'' [Q|HI]; [|exact (IH q' p'' m'' HI)].
      injection Q as <- <- <-. refine (proj1 (proj1 (gt_map _ G q p' m') _)). apply (om_get_In N.ltb). exact Eg.
    - right. exists (s_entropy (mt_entropy t) q), (s_leaf p m). repeat split.
      + unfold tree_pre, entropy_pre. apply in_or_app. right. apply in_flat_map.
        exists q. rewrite Eg. split; [apply N_from_In; rewrite pow_of_nat; lia|left; reflexivity].
      + unfold pcommit_pre. apply in_or_app. right. apply ppre_leaf.
        rewrite <- (pleaves_at_leaves (mt_depth t) 0 0). apply in_map_iff. exists (q, (p, m)).
        split; [reflexivity|]. apply I. left. reflexivity.
      + intros X. symmetry in X. exact (s_leaf_entropy _ _ _ _ X).
      + exact M. }
  destruct (G1 _ (incl_refl _)) as [A|A]; [left|right; exact A]. split; [reflexivity|split; [reflexivity|]].
  intros p m I. rewrite <- (pleaves_at_leaves (mt_depth t) 0 0) in I. apply in_map_iff in I as [[q e] [Q I]]. cbn in Q. subst e. exact (A q p m I).
Qed.
End WithHash.

Lemma c105_extract : forall (H : Hasher) md src rng t c
  (valid : valid_source src) (made : try_commit src rng = Ret (Ok t)) (tree_id : tree_commit_id md t = Ret c),
  (forall md' pf pid msg (validp : valid_proof pf) (conv : convolve md' pf pid msg = Ret (Ok c)),
     (In (pid, msg) (ms_messages src) /\ to_merkle_proof md' (block_of_tree t) pid = Ret (Ok pf)) \/
     second_in (tree_pre t) (proof_pre pf pid msg)) /\
  (forall b (validb : valid_block b) (block_id : block_commit_id Debug b = Ret c),
     (forall p m, In (p, m) (known_leaves (mb_cross_section b)) -> In (p, m) (ms_messages src)) \/
     exists pt, mb_cross_section b = flatten 0 pt /\ pwf_loose (mb_depth b) 0 pt /\
       second_in (tree_pre t) (pcommit_pre (mb_depth b) (mb_cofactor b) pt)) /\
  (forall md' src' rng' t' (valid' : valid_source src') (made' : try_commit src' rng' = Ret (Ok t'))
     (tree_id' : tree_commit_id md' t' = Ret c),
     ms_messages src' = ms_messages src \/ second_in (tree_pre t) (tree_pre t')).
Proof.
  intros H md src rng t c V E It. pose proof (try_commit_good _ _ _ V E) as G.
  destruct (c04_placement _ _ _ V E) as [_ [_ [Em _]]]. rewrite (tree_commit_ok md t G) in It. injection It as It.
  assert (B16 : (500 < 2 ^ 16)%N) by reflexivity.
  assert (Gc' : (mt_cofactor t < 2 ^ 16)%N) by (pose proof (gt_cofactor _ G); lia).
  split; [|split].
  - intros md' pf pid msg Vp C. destruct (convolve_inv _ _ _ _ _ Vp C) as [L [B [P Ec]]].
    assert (EQ : pcommit (length (mp_path pf)) (mp_cofactor pf) (proof_tree pf pid msg) =
                 pcommit (mt_depth t) (mt_cofactor t) (tree_full t)) by congruence.
    destruct (vouches_second _ _ t (proof_tree pf pid msg) G L B) as [[_ [_ K]]|K]; [|exact EQ| |right; exact K].
    { apply pwf_loose_of, path_tree_pwf. reflexivity. }
    destruct (pcommit_second _ _ _ _ _ _ L (gt_depth _ G) B Gc' EQ) as [[ED [EC PC]]|PC].
    2: { right. apply second_swap. eapply second_mono; [apply incl_refl|apply tree_pre_commit|exact PC]. }
    left. destruct (path_tree_leaf (mp_path pf) (mp_pos pf) pid msg (length (mp_path pf)) 0 0%N) as [q Q].
    assert (M : In (pid, msg) (mt_messages t)).
    { apply K. rewrite <- (pleaves_at_leaves (length (mp_path pf)) 0 0). apply in_map_iff. exists (q, (pid, msg)). split; [reflexivity|exact Q]. }
    split; [rewrite <- Em; exact M|].
    pose proof (proj2 (tree_full_pleaves t pid msg G) M) as Hl.
    destruct (to_merkle_proof_ok md' (block_of_tree t) (tree_full t) pid msg (block_of_tree_wf t G) (tree_full_placed t G) Hl)
      as [path [Lp [ER ET]]]. change (mb_depth (block_of_tree t)) with (mt_depth t) in *.
    change (mb_cofactor (block_of_tree t)) with (mt_cofactor t) in *.
    pose proof (prestrict_view (mem [pid]) (width_of (mt_depth t)) 0 (tree_full t)) as PV.
    rewrite ER in PV. unfold proof_tree in PC. rewrite P, ED, EC in PC.
    destruct (path_compat_view _ _ _ _ _ _ _ _ _ _ (eq_trans ED (eq_sym Lp)) PC PV) as [EP _].
    rewrite ET. do 2 f_equal. destruct pf as [me po co pa]. cbn in *. subst. f_equal; [apply method_eq|congruence].
  - intros b [D [Co _]] IB. apply (block_commit_id_debug_iff b c D) in IB as [pt [E1 [E2 E3]]].
    destruct (vouches_second _ _ t pt G D Co E2) as [[_ [_ K]]|K]; [congruence|left|right; exists pt; auto].
    intros p m I. rewrite E1, known_leaves_flatten in I. rewrite <- Em. apply K, I.
  - intros md' src' rng' t' V' E' It'. pose proof (try_commit_good _ _ _ V' E') as G'.
    destruct (c04_placement _ _ _ V' E') as [_ [_ [Em' _]]]. rewrite (tree_commit_ok md' t' G') in It'. injection It' as It'.
    assert (Gc2 : (mt_cofactor t' < 2 ^ 16)%N) by (pose proof (gt_cofactor _ G'); lia).
    pose proof (block_of_tree_wf t G) as [_ [_ [_ W1]]]. pose proof (block_of_tree_wf t' G') as [_ [_ [_ W2]]].
    destruct (vouches_second _ _ t (tree_full t') G (gt_depth _ G') Gc2 (pwf_loose_of _ _ _ W2)) as [[_ [_ K2]]|K2]; [congruence| |right].
    2: { eapply second_mono; [apply incl_refl|apply tree_pre_commit|exact K2]. }
    destruct (vouches_second _ _ t' (tree_full t) G' (gt_depth _ G) Gc' (pwf_loose_of _ _ _ W1)) as [[_ [_ K1]]|K1]; [congruence| |right].
    2: { apply second_swap. eapply second_mono; [apply incl_refl|apply tree_pre_commit|exact K1]. }
    left. apply (om_sorted_ext b32_ltb); [apply V'|apply V|].
    intros p m. rewrite <- Em, <- Em', <- (tree_full_pleaves t p m G), <- (tree_full_pleaves t' p m G'). split; intros I.
    + apply (tree_full_pleaves t p m G), K2, I.
    + apply (tree_full_pleaves t' p m G'), K1, I.
Qed.

(** ** Blocks are read back into trees *)
Definition top_node (D d : nat) (xs : list tree_node) : option (ptree * list tree_node) :=
  match xs with
  | ConcealedNode d' h :: r => if d' =? d then Some (PConc h, r) else None
  | CommitmentLeaf p m :: r => if d =? D then Some (PLeaf p m, r) else None
  | [] => None
  end.
Fixpoint reread (D k d : nat) (xs : list tree_node) : option (ptree * list tree_node) :=
  match top_node D d xs with
  | Some x => Some x
  | None =>
      match k with
      | O => None
      | S k' =>
          match reread D k' (S d) xs with
          | Some (l, xs') => match reread D k' (S d) xs' with Some (r, xs'') => Some (PBr l r, xs'') | None => None end
          | None => None
          end
      end
  end.
Lemma top_below D d t : forall d' rest, d < d' -> pwf_loose D d' t -> top_node D d (flatten d' t ++ rest) = None.
Proof.
  induction t as [h|p m|l IHl r IHr]; intros d' rest L W; cbn [flatten app top_node pwf_loose] in *.
  - destruct (Nat.eqb_spec d' d); [lia|reflexivity].
  - subst d'. destruct (Nat.eqb_spec d D); [lia|reflexivity].
  - rewrite <- app_assoc. apply IHl; [lia|apply W].
Qed.
Lemma reread_flatten D t : forall k d rest, S D <= k + d -> pwf_loose D d t -> reread D k d (flatten d t ++ rest) = Some (t, rest).
Proof.
  induction t as [h|p m|l IHl r IHr]; intros k d rest L W; cbn [flatten app pwf_loose] in *.
  - destruct k; cbn [reread top_node]; rewrite Nat.eqb_refl; reflexivity.
  - destruct k; cbn [reread top_node]; rewrite (proj2 (Nat.eqb_eq d D) W); reflexivity.
  - destruct W as [W1 W2]. assert (LD : S d <= S D).
    { clear - W1. revert W1. generalize (S d) as e. induction l as [h|p m|l1 I1 l2 I2]; intros e; cbn; [lia|lia|]. intros [X _]. apply I1 in X. lia. }
    destruct k as [|k]; [lia|]. cbn [reread]. rewrite <- app_assoc, (top_below D d l (S d)) by (assumption || lia).
    rewrite (IHl k (S d)) by (assumption || lia). rewrite (IHr k (S d)) by (assumption || lia). reflexivity.
Qed.
Definition p_block (k : nat) (b : merkle_block) : prog bytes32 :=
  if length (mb_cross_section b) <=? k then
    match reread (mb_depth b) (S (mb_depth b)) 0 (mb_cross_section b) with
    | Some (t, []) => if 1 + p_size t <=? 2 * length (mb_cross_section b)
        then Ask s_node_tag (fun th => andthen (p_hash th (2 ^ N.of_nat (mb_depth b)) 0 t) (p_finish (mb_depth b) (mb_cofactor b)))
        else Done (b32_fill x00)
    | _ => Done (b32_fill x00)
    end
  else Done (b32_fill x00).
Lemma p_size_flatten t : forall d, 1 + p_size t <= 2 * length (flatten d t).
Proof. induction t as [h|p m|l IHl r IHr]; intros d; cbn [p_size flatten]; [cbn; lia|cbn; lia|]. rewrite app_length. specialize (IHl (S d)). specialize (IHr (S d)). lia. Qed.
Lemma p_block_modest k b n : 162 <= n -> modest n (2 * k + 2) (p_block k b).
Proof.
  intros N. unfold p_block. destruct (Nat.leb_spec (length (mb_cross_section b)) k) as [L|]; [|exact I].
  destruct (reread _ _ _ _) as [[t [|x xs]]|]; [|exact I|exact I].
  destruct (Nat.leb_spec (1 + p_size t) (2 * length (mb_cross_section b))) as [L'|]; [|exact I].
  apply (modest_mono n _ (S (p_size t + 2))); [lia|].
  split; [eapply Nat.le_trans; [apply tag_length|exact N]|]. intros th. apply modest_andthen; [apply p_hash_modest, N|].
  intros r. apply p_finish_modest, N.
Qed.
Lemma p_block_asked H k b t : length (mb_cross_section b) <= k -> mb_cross_section b = flatten 0 t -> pwf_loose (mb_depth b) 0 t ->
  incl (@pcommit_pre H (mb_depth b) (mb_cofactor b) t) (asked H (p_block k b)).
Proof.
  intros L E W. unfold p_block. rewrite (proj2 (Nat.leb_le _ _) L).
  replace (reread (mb_depth b) (S (mb_depth b)) 0 (mb_cross_section b)) with (Some (t, @nil tree_node)).
  - rewrite E at 1. rewrite (proj2 (Nat.leb_le _ _) (p_size_flatten t 0)).
    intros s. unfold pcommit_pre. cbn [asked]. rewrite asked_andthen, p_hash_exec. cbn [p_finish asked app In].
    rewrite !in_app_iff. cbn [In]. intros [<-|[<-|[<-|I]]]; [tauto|tauto|right; right; right; left; reflexivity|].
    right; left. apply p_hash_asked, I.
  - rewrite E, <- (app_nil_r (flatten 0 t)), reread_flatten; [reflexivity|lia|exact W].
Qed.

(** ** Games *)
Fixpoint p_made (D : nat) (made : list (multi_source * option N)) : prog unit :=
  match made with
  | [] => Done tt
  | (src, rng) :: made' => andthen (p_commit D src rng) (fun _ => p_made D made')
  end.
Lemma p_made_modest D made n : 162 <= n -> modest n (length made * (2 * 2 ^ D + 2)) (p_made D made).
Proof.
  intros N. induction made as [|[src rng] made IH]; [exact I|]. cbn [p_made length Nat.mul].
  apply modest_andthen; [apply p_commit_modest, N|intros _; exact IH].
Qed.
Lemma p_made_asked H D made src rng t : In (src, rng) made -> try_commit src rng = Ret (Ok t) -> mt_depth t <= D ->
  incl (@tree_pre H t) (asked H (p_made D made)).
Proof.
  intros I E L. induction made as [|[src' rng'] made IH]; [destruct I|]. cbn [p_made]. rewrite asked_andthen. destruct I as [I|I].
  - injection I as -> ->. apply incl_appl, (p_commit_asked H D src rng t E L).
  - apply incl_appr, IH, I.
Qed.
Lemma made_tree D made src rng t : made_before D made -> In (src, rng) made -> try_commit src rng = Ret (Ok t) ->
  valid_source src /\ mt_depth t <= D.
Proof. intros M I E. destruct (M src rng I) as (V & t' & E' & L). assert (t' = t) by congruence. subst t'. auto. Qed.

Lemma c105_second : forall n U A C (first : prog A) (later : A -> prog C) j q
  (strings : universe n U) (before : modest n j first) (after : forall a, modest n q (later a)),
  rare U (fun H => @second_in H (asked H first) (asked H first ++ asked H (later (exec H first))))
       (N.of_nat j * N.of_nat (j - 1) + 2 * N.of_nat j * N.of_nat q) (2 ^ 257).
Proof.
  intros n U A C p r j q [NU IU] Mp Mr B NB HB.
  pose proof (two_stages U n (fun s L => proj2 (IU s) L) NU A C r q Mr p j [] U B Mp (NoDup_nil _)) as X.
  cbn [length map app] in X. change (N.of_nat 0) with 0%N in X. rewrite N.mul_comm. eapply N.le_trans; [apply X|].
  - intros u Iu. left. exact Iu.
  - exact NB.
  - intros f If. destruct (HB f If) as [L S]. split; [exact L|split; [intros s a []|exact S]].
  - apply N.mul_le_mono_r. lia.
Qed.

Lemma rare_target n U D made {A C} (p : prog A) (chk : A -> prog C) q r (P : Hasher -> Prop) :
  universe n U -> 162 <= n -> modest n q p -> (forall x, modest n r (chk x)) ->
  (forall H, P H -> @second_in H (asked H (p_made D made)) (asked H (chk (exec H p)))) ->
  let K := N.of_nat (length made * (2 * 2 ^ D + 2)) in
  rare U P (K * (K - 1) + 2 * K * N.of_nat (q + r)) (2 ^ 257).
Proof.
  intros UU N M Mc S K B NB HB.
  replace (K - 1)%N with (N.of_nat (length made * (2 * 2 ^ D + 2) - 1)) by (unfold K; lia).
  apply (c105_second n U unit C (p_made D made) (fun _ => andthen p chk) (length made * (2 * 2 ^ D + 2)) (q + r) UU); [apply p_made_modest, N| |exact NB|].
  - intros _. apply modest_andthen; assumption.
  - intros f If. destruct (HB f If) as [L PF]. split; [exact L|].
    eapply second_mono; [apply incl_refl| |exact (S _ PF)]. rewrite asked_andthen. apply incl_appr, incl_appr, incl_refl.
Qed.

Lemma c105_proof : forall n U q D made (adversary : prog (merkle_proof * bytes32 * bytes32))
  (strings : universe n U) (short : 162 <= n) (few : modest n q adversary) (before : made_before D made),
  let K := N.of_nat (length made * (2 * 2 ^ D + 2)) in
  rare U (fun H => let '(pf, pid, msg) := exec H adversary in
            valid_proof pf /\ exists src t md c, committed H made src t c /\ @convolve H md pf pid msg = Ret (Ok c) /\
              (~ In (pid, msg) (ms_messages src) \/ @to_merkle_proof H md (block_of_tree t) pid <> Ret (Ok pf)))
       (K * (K - 1) + 2 * K * N.of_nat (q + 35)) (2 ^ 257).
Proof.
  intros n U q D made adv UU N M Bf. cbv zeta.
  apply (rare_target n U D made adv (fun '(pf, pid, msg) => p_check pf pid msg) q 35); try assumption.
  - intros [[pf pid] msg]. apply p_check_modest, N.
  - intros H. destruct (exec H adv) as [[pf pid] msg]. intros (Vp & src & t & md & c & (rng & md' & I & E & Id) & C & Bad).
    destruct (made_tree D made src rng t Bf I E) as [V L].
    destruct (proj1 (c105_extract H md' src rng t c V E Id) md pf pid msg Vp C) as [[X Y]|X]; [destruct Bad; contradiction|].
    eapply second_mono; [apply (p_made_asked H D made src rng t I E L)|apply (p_check_asked H md _ _ _ c C)|exact X].
Qed.

Lemma c105_block : forall n U q k D made (adversary : prog merkle_block)
  (strings : universe n U) (short : 162 <= n) (few : modest n q adversary) (before : made_before D made),
  let K := N.of_nat (length made * (2 * 2 ^ D + 2)) in
  rare U (fun H => let b := exec H adversary in
            valid_block b /\ length (mb_cross_section b) <= k /\
            exists src t c p m, committed H made src t c /\ @block_commit_id H Debug b = Ret c /\
              In (p, m) (known_leaves (mb_cross_section b)) /\ ~ In (p, m) (ms_messages src))
       (K * (K - 1) + 2 * K * N.of_nat (q + (2 * k + 2))) (2 ^ 257).
Proof.
  intros n U q k D made adv UU N M Bf. cbv zeta.
  apply (rare_target n U D made adv (p_block k) q (2 * k + 2)); try assumption.
  - intros b. apply p_block_modest, N.
  - intros H. set (b := exec H adv). intros (Vb & Lk & src & t & c & p & m & (rng & md' & I & E & Id) & C & Ip & Np).
    destruct (made_tree D made src rng t Bf I E) as [V L].
    destruct (proj1 (proj2 (c105_extract H md' src rng t c V E Id)) b Vb C) as [X|(pt & E1 & W & X)]; [destruct (Np (X p m Ip))|].
    eapply second_mono; [apply (p_made_asked H D made src rng t I E L)|apply (p_block_asked H k b pt Lk E1 W)|exact X].
Qed.

Lemma c105_tree : forall n U q D D' made (adversary : prog (multi_source * option N))
  (strings : universe n U) (short : 162 <= n) (few : modest n q adversary) (before : made_before D made),
  let K := N.of_nat (length made * (2 * 2 ^ D + 2)) in
  rare U (fun H => let '(src', rng') := exec H adversary in
            valid_source src' /\ exists t' md', try_commit src' rng' = Ret (Ok t') /\ mt_depth t' <= D' /\
            exists src t c, committed H made src t c /\ @tree_commit_id H md' t' = Ret c /\ ms_messages src' <> ms_messages src)
       (K * (K - 1) + 2 * K * N.of_nat (q + (2 * 2 ^ D' + 2))) (2 ^ 257).
Proof.
  intros n U q D D' made adv UU N M Bf. cbv zeta.
  apply (rare_target n U D made adv (fun '(src', rng') => p_commit D' src' rng') q (2 * 2 ^ D' + 2)); try assumption.
  - intros [src' rng']. apply p_commit_modest, N.
  - intros H. destruct (exec H adv) as [src' rng']. intros (V' & t' & md' & E' & L' & src & t & c & (rng & md & I & E & Id) & Id' & Ne).
    destruct (made_tree D made src rng t Bf I E) as [V L].
    destruct (proj2 (proj2 (c105_extract H md src rng t c V E Id)) md' src' rng' t' V' E' Id') as [X|X]; [contradiction|].
    eapply second_mono; [apply (p_made_asked H D made src rng t I E L)|apply (p_commit_asked H D' src' rng' t' E' L')|exact X].
Qed.

(** Values which are no commitments *)
Lemma rare_struck n U cs {A C} (p : prog A) (chk : A -> prog C) q r (P : Hasher -> Prop) :
  universe n U -> modest n q p -> (forall x, modest n r (chk x)) ->
  (forall H, P H -> exists s, In s (asked H (chk (exec H p))) /\ In (H s) cs) ->
  rare U P (N.of_nat (length cs) * N.of_nat (q + r)) (2 ^ 256).
Proof.
  intros [NU IU] M Mc S B NB HB.
  pose proof (struck U n (fun s L => proj2 (IU s) L) NU cs C (andthen p chk) (q + r) [] U B) as X.
  rewrite N.mul_comm. apply X; [apply modest_andthen; assumption|intros a _ []|intros u Iu; left; exact Iu|exact NB|].
  intros f If. destruct (HB f If) as [L PF]. split; [exact L|split; [intros s a []|]].
  destruct (S _ PF) as (s & Is & Ic). exists s. split; [|exact Ic]. cbn [map app]. rewrite asked_andthen. apply in_or_app. right. exact Is.
Qed.
Lemma c105_value : forall n U q k D cs
  (opener : prog (merkle_proof * bytes32 * bytes32)) (shower : prog merkle_block) (maker : prog (multi_source * option N))
  (strings : universe n U) (short : 162 <= n) (few1 : modest n q opener) (few2 : modest n q shower) (few3 : modest n q maker),
  let v := N.of_nat (length cs) in
  rare U (fun H => let '(pf, pid, msg) := exec H opener in
            valid_proof pf /\ exists md c, @convolve H md pf pid msg = Ret (Ok c) /\ In c cs)
       (v * N.of_nat (q + 35)) (2 ^ 256) /\
  rare U (fun H => let b := exec H shower in
            valid_block b /\ length (mb_cross_section b) <= k /\ exists c, @block_commit_id H Debug b = Ret c /\ In c cs)
       (v * N.of_nat (q + (2 * k + 2))) (2 ^ 256) /\
  rare U (fun H => let '(src, rng) := exec H maker in
            valid_source src /\ exists t md c, try_commit src rng = Ret (Ok t) /\ mt_depth t <= D /\ @tree_commit_id H md t = Ret c /\ In c cs)
       (v * N.of_nat (q + (2 * 2 ^ D + 2))) (2 ^ 256).
Proof.
  intros n U q k D cs p1 p2 p3 UU N M1 M2 M3. cbv zeta. split; [|split].
  - apply (rare_struck n U cs p1 (fun '(pf, pid, msg) => p_check pf pid msg) q 35); try assumption.
    + intros [[pf pid] msg]. apply p_check_modest, N.
    + intros H. destruct (exec H p1) as [[pf pid] msg]. intros (Vp & md & c & C & Ic).
      destruct (@convolve_inv H md pf pid msg c Vp C) as [_ [_ [_ Ec]]].
      eexists. split; [apply (p_check_asked H md _ _ _ c C); right; right; left; reflexivity|].
      rewrite Ec in Ic. exact Ic.
  - apply (rare_struck n U cs p2 (p_block k) q (2 * k + 2)); try assumption.
    + intros b. apply p_block_modest, N.
    + intros H. set (b := exec H p2). intros (Vb & Lk & c & C & Ic).
      apply (@block_commit_id_debug_iff H b c (proj1 Vb)) in C as [pt [E1 [W Ec]]].
      eexists. split; [apply (p_block_asked H k b pt Lk E1 W); right; right; left; reflexivity|]. rewrite Ec in Ic. exact Ic.
  - apply (rare_struck n U cs p3 (fun '(src, rng) => p_commit D src rng) q (2 * 2 ^ D + 2)); try assumption.
    + intros [src rng]. apply p_commit_modest, N.
    + intros H. destruct (exec H p3) as [src rng]. intros (V & t & md & c & E & L & Id & Ic).
      pose proof (try_commit_good _ _ _ V E) as G. rewrite (@tree_commit_ok H md t G) in Id. injection Id as <-.
      eexists. split; [apply (p_commit_asked H D src rng t E L), tree_pre_commit; right; right; left; reflexivity|]. exact Ic.
Qed.

Lemma c105_numbers : forall n U q made (adversary : prog (merkle_proof * bytes32 * bytes32))
  (strings : universe n U) (short : 162 <= n) (few : modest n q adversary) (before : made_before 16 made)
  (work : (N.of_nat q <= 2 ^ 100)%N) (many : (N.of_nat (length made) <= 2 ^ 20)%N),
  rare U (fun H => let '(pf, pid, msg) := exec H adversary in
            valid_proof pf /\ exists src t md c, committed H made src t c /\ @convolve H md pf pid msg = Ret (Ok c) /\
              ~ In (pid, msg) (ms_messages src))
       1 (2 ^ 118).
Proof.
  intros n U q made adv UU N M Bf W Mn B NB HB.
  pose proof (c105_proof n U q 16 made adv UU N M Bf B NB) as X. cbv zeta in X.
  set (K := N.of_nat (length made * (2 * 2 ^ 16 + 2))) in *. set (Q := N.of_nat (q + 35)) in *. set (T := (2 ^ (256 * N.of_nat (length U)))%N) in *.
  assert (X' : (N.of_nat (length B) * 2 ^ 257 <= (K * (K - 1) + 2 * K * Q) * T)%N).
  { apply X. intros f If. destruct (HB f If) as [L P]. split; [exact L|]. destruct (exec _ adv) as [[pf pid] msg].
    destruct P as (V & src & t & md & c & P1 & P2 & P3). split; [exact V|]. exists src, t, md, c. auto. }
  assert (KL : (K <= 2 ^ 20 * 131074)%N).
  { unfold K. rewrite Nat2N.inj_mul. replace (N.of_nat (2 * 2 ^ 16 + 2)) with (131074)%N.
    - apply N.mul_le_mono_r, Mn.
    - rewrite Nat2N.inj_add, Nat2N.inj_mul, pow_of_nat. reflexivity. }
  assert (QL : (Q <= 2 ^ 100 + 35)%N) by (unfold Q; lia).
  assert (TL : (K * (K - 1) + 2 * K * Q <= 2 ^ 139)%N).
  { eapply N.le_trans; [apply N.add_le_mono; [apply N.mul_le_mono; [exact KL|eapply N.le_trans; [apply N.le_sub_l|exact KL]]|
      apply N.mul_le_mono; [apply N.mul_le_mono_l, KL|exact QL]]|]. vm_compute. discriminate. }
  rewrite N.mul_1_l.
  assert (Y : (2 ^ 139 * (N.of_nat (length B) * 2 ^ 118) <= 2 ^ 139 * T)%N).
  { replace (2 ^ 139 * (N.of_nat (length B) * 2 ^ 118))%N with (N.of_nat (length B) * 2 ^ 257)%N.
    - eapply N.le_trans; [exact X'|]. apply N.mul_le_mono_r, TL.
    - change (2 ^ 257)%N with (2 ^ 139 * 2 ^ 118)%N. lia. }
  apply N.mul_le_mono_pos_l in Y; [exact Y|reflexivity].
Qed.
