(** Properties of MPC commitments in terms of the specifications (restated in PropMpc.v). *)
From Verif Require Import Base BaseFacts OrdMap OrdMapFacts Strict Digest Merkle MpcAtoms MpcTree MpcBlock Schemes.
From Verif Require Import SpecHash SpecTree SpecMerkle SpecCommit SpecFull SpecValid SpecDerived SpecEngine.
From Verif Require Import HashFacts TreeFacts ConcealProofs BlockInv PathProofs MergeProofs MerkleProofs.
From Verif Require Import MpcTreeProofs DerivedProofs Engine EngineProofs MiscProofs Sha256.
From Coq Require Import Permutation Sorting.Sorted.
Local Open Scope nat_scope.

Definition toy : Hasher := fun l =>
  b32_of_N (fold_left (fun a b => N.land (31 * a + Byte.to_N b) 0xFFFFFFFFFFFFFFFF) l 7)%N.
Definition p1 := b32_fill x01.
Definition p2 := b32_fill x02.
Definition p3 := b32_fill x03.
Definition m1 := b32_fill x51.
Definition m2 := b32_fill x52.

(** ** C01 *)
Lemma c01_one_message : forall (H : Hasher) md1 md2 pf1 pf2 pid m1 m2 c
  (valid1 : valid_proof pf1) (valid2 : valid_proof pf2)
  (conv1 : convolve md1 pf1 pid m1 = Ret (Ok c)) (conv2 : convolve md2 pf2 pid m2 = Ret (Ok c)),
  m1 = m2 \/ collision_in (proof_pre pf1 pid m1 ++ proof_pre pf2 pid m2).
Proof.
  intros H md1 md2 pf1 pf2 pid x y c [_ [V1 _]] [_ [V2 _]] C1 C2.
  exact (convolve_binding md1 md2 pf1 pf2 pid x y c V1 V2 C1 C2).
Qed.

(** ** C02 *)
Lemma c02_every_message_has_proof : forall (H : Hasher) md src rng t pid msg
  (valid : valid_source src) (made : try_commit src rng = Ret (Ok t))
  (message : In (pid, msg) (ms_messages src)),
  exists pf c, to_merkle_proof md (block_of_tree t) pid = Ret (Ok pf) /\
    tree_commit_id md t = Ret c /\ convolve md pf pid msg = Ret (Ok c) /\ valid_proof pf.
Proof.
  intros H md src rng t pid msg V E I. pose proof (try_commit_good _ _ _ V E) as G.
  assert (MS : mt_messages t = ms_messages src).
  { pose proof (try_commit_spec src rng (proj1 V) (proj1 (proj2 V))) as T. cbv zeta in T. rewrite E in T. tauto. }
  rewrite <- MS in I. apply (tree_full_pleaves t pid msg G) in I.
  destruct (view_proof md t _ _ pid msg G (view_block_tree t G) I)
    as [pf [b' [P1 [P2 [P3 [P4 [P5 [P6 [P7 [P8 [P9 P10]]]]]]]]]]].
  exists pf. eexists. split; [exact P1|split; [|split; [exact P10|]]].
  - apply tree_commit_ok. exact G.
  - pose proof (gt_depth _ G) as GD. pose proof (gt_cofactor _ G) as GC.
    unfold valid_proof. rewrite P6, P7, P8. split; [|split; lia].
    destruct (pos_spec pid (mt_cofactor t) (mt_depth t) GD) as [_ B].
    apply (N.lt_le_trans _ _ _ B). apply N.pow_le_mono_r; lia.
Qed.

(** ** C03 *)
Lemma c03_convolve_total : forall (H : Hasher) md pf pid msg
  (short : length (mp_path pf) <= 31),
  let D := length (mp_path pf) in
  convolve md pf pid msg =
  if N.eqb (s_pos pid (mp_cofactor pf) D) (mp_pos pf)
  then Ret (Ok (pcommit D (mp_cofactor pf) (path_tree (mp_path pf) (mp_pos pf) pid msg)))
  else Ret (Err (InvalidProof pid (s_pos pid (mp_cofactor pf) D) (mp_pos pf) (2 ^ N.of_nat D)%N)).
Proof.
  intros H md pf pid msg L. cbv zeta. rewrite convolve_spec by exact L. cbv zeta.
  destruct (pos_spec pid (mp_cofactor pf) _ L) as [-> _]. reflexivity.
Qed.
Lemma c03_convolve_total_refuted : exists pf, valid_proof pf /\
  forall (H : Hasher) md pid msg, convolve md pf pid msg = Panic PAssert.
Proof.
  exists (MProof Sha256t 0 0 (repeat (b32_fill x00) 32)). split.
  - unfold valid_proof. cbn. repeat split; lia.
  - intros. apply convolve_long. cbn. lia.
Qed.

(** ** C04 *)
Lemma c04_placement : forall src rng t
  (valid : valid_source src) (made : try_commit src rng = Ret (Ok t)),
  ms_min_depth src <= mt_depth t <= 31 /\
  mt_method t = ms_method src /\ mt_messages t = ms_messages src /\
  match ms_static_entropy src with Some e => mt_entropy t = e | None => rng = Some (mt_entropy t) end /\
  om_sorted N.ltb (mt_map t) = true /\
  (forall q p m, In (q, (p, m)) (mt_map t) <->
     In (p, m) (ms_messages src) /\ q = s_pos p (mt_cofactor t) (mt_depth t)) /\
  NoDup (map (fun e => s_pos (fst e) (mt_cofactor t) (mt_depth t)) (ms_messages src)) /\
  (forall e, In e (ms_messages src) ->
     (s_pos (fst e) (mt_cofactor t) (mt_depth t) < 2 ^ N.of_nat (mt_depth t))%N).
Proof.
  intros src rng t V E. pose proof (try_commit_good _ _ _ V E) as G.
  pose proof (try_commit_spec src rng (proj1 V) (proj1 (proj2 V))) as T. cbv zeta in T. rewrite E in T.
  destruct T as [_ [Te [Tm [Ts [Al _]]]]]. rewrite <- Ts.
  split; [|split; [exact Tm|split; [reflexivity|split]]].
  - destruct Al as [A _]. exact A.
  - unfold entropy_of in Te. destruct (ms_static_entropy src) as [e|]; [congruence|exact Te].
  - split; [apply G|split; [apply (gt_map t G)|split; [apply (gt_distinct t G)|]]].
    intros e _. apply pos_spec. apply (gt_depth t G).
Qed.

(** ** C05 *)
Lemma c05_first_fit : forall src rng
  (valid : valid_source src) (entropy : ms_static_entropy src <> None \/ rng <> None),
  let n := length (ms_messages src) in
  let works d c := allowed (ms_min_depth src) n d c /\ fits (ms_messages src) d c in
  (ms_min_depth src = 0 /\ n = 0 /\ try_commit src rng = Ret (Err Empty)) \/
  (~ (ms_min_depth src = 0 /\ n = 0) /\ (forall d c, ~ works d c) /\
     try_commit src rng = Ret (Err (CantFitInMaxSlots n))) \/
  (~ (ms_min_depth src = 0 /\ n = 0) /\
   exists t, try_commit src rng = Ret (Ok t) /\ works (mt_depth t) (mt_cofactor t) /\
     forall d c, works d c -> not_after (mt_depth t, mt_cofactor t) (d, c)).
Proof.
  intros src rng V EN. cbv zeta.
  pose proof (try_commit_spec src rng (proj1 V) (proj1 (proj2 V))) as T. cbv zeta in T.
  assert (LN : length (ms_messages src) = 0 <-> ms_messages src = [])
    by (destruct (ms_messages src); cbn; split; congruence).
  destruct (try_commit src rng) as [[t|e]|p].
  - right. right. destruct T as [NE [_ [_ [_ [A [F [_ MIN]]]]]]]. split; [rewrite LN; exact NE|].
    exists t. split; [reflexivity|split; [split; assumption|]]. intros d c [A' F']. apply MIN; assumption.
  - destruct e as [|n|n].
    + left. rewrite LN. destruct T; auto.
    + contradiction.
    + right. left. destruct T as [NE [_ [-> NO]]]. split; [rewrite LN; exact NE|]. split; [|reflexivity].
      intros d c [A F]. exact (NO d c A F).
  - exfalso. destruct T as [_ [T _]]. unfold entropy_of in T.
    destruct (ms_static_entropy src); [discriminate|]. destruct EN as [EN|EN]; congruence.
Qed.

(** ** C06 *)
Lemma try_commit_static src r1 r2 : ms_static_entropy src <> None -> try_commit src r1 = try_commit src r2.
Proof. intros S. unfold try_commit. destruct (ms_static_entropy src); [reflexivity|congruence]. Qed.

Lemma c06_verify_static : forall (H : Hasher) src rng rng' t'
  (valid : valid_source src) (static : ms_static_entropy src <> None),
  match try_commit src rng with
  | Ret (Ok t) => (t = t' -> tv_verify (tv_merkle_tree rng') t' src = Ret (Ok tt)) /\
                  (t <> t' -> tv_verify (tv_merkle_tree rng') t' src = Ret (Err InvalidCommitment))
  | Ret (Err _) => tv_verify (tv_merkle_tree rng') t' src = Ret (Err InvalidMessage)
  | Panic _ => False
  end.
Proof.
  intros H src rng rng' t' V S. rewrite (try_commit_static src rng rng' S).
  destruct (c05_first_fit src rng' V (or_introl S)) as [[_ [_ E]]|[[_ [_ E]]|[_ [t [E _]]]]];
    unfold tv_verify, tv_merkle_tree; cbn [tv_try_commit tv_eq]; rewrite E; cbn [bind]; try reflexivity.
  split; intros X.
  - subst t'. rewrite (proj2 (merkle_tree_eqb_eq t t) eq_refl). reflexivity.
  - destruct (merkle_tree_eqb t t') eqn:EE; [apply merkle_tree_eqb_eq in EE; contradiction|reflexivity].
Qed.
Lemma c06_verify_rng : forall (H : Hasher) src r r' t
  (valid : valid_source src) (dynamic : ms_static_entropy src = None)
  (made : try_commit src (Some r) = Ret (Ok t)),
  (r' = r -> tv_verify (tv_merkle_tree (Some r')) t src = Ret (Ok tt)) /\
  (r' <> r -> tv_verify (tv_merkle_tree (Some r')) t src = Ret (Err InvalidCommitment)).
Proof.
  intros H src r r' t V S E.
  destruct (tv_verify_iff (tv_merkle_tree (Some r')) t src merkle_tree_eqb_eq) as [VI [VC _]]. split.
  - intros ->. apply VI. exact E.
  - intros NE. apply VC. cbn [tv_merkle_tree tv_try_commit].
    assert (SN : Some r' <> None) by discriminate.
    assert (SN0 : Some r <> None) by discriminate.
    destruct (c05_first_fit src (Some r') V (or_intror SN)) as [[X [Y E']]|[[_ [NO E']]|[_ [t' [E' _]]]]].
    + exfalso. destruct (c05_first_fit src (Some r) V (or_intror SN0)) as [[_ [_ E0]]|[[NX _]|[NX _]]];
        [congruence|auto|auto].
    + exfalso. destruct (c05_first_fit src (Some r) V (or_intror SN0)) as [[_ [_ E0]]|[[_ [_ E0]]|[_ [t0 [E0 [W _]]]]]];
        try congruence. apply (NO _ _ W).
    + exists t'. split; [exact E'|]. intros ->.
      pose proof (c04_placement _ _ _ V E) as P. pose proof (c04_placement _ _ _ V E') as P'.
      rewrite S in P, P'. destruct P as [_ [_ [_ [P _]]]]. destruct P' as [_ [_ [_ [P' _]]]]. congruence.
Qed.

(** ** C07 *)
Lemma c07_one_commitment : forall (H : Hasher) md src rng t
  (valid : valid_source src) (made : try_commit src rng = Ret (Ok t)),
  exists c root, let concealed := MConcealed (mt_depth t) (mt_cofactor t) root in
    commit_id md ce_tree t = Ret c /\ commit_id md ce_block (block_of_tree t) = Ret c /\
    commit_id md ce_concealed concealed = Ret c /\
    tree_conceal md t = Ret concealed /\ block_conceal md (block_of_tree t) = Ret concealed /\
    mt_root t = Ret root.
Proof.
  intros H md src rng t V E. pose proof (try_commit_good _ _ _ V E) as G.
  pose proof (tree_conceal_ok md t G) as TC.
  eexists. eexists. cbv zeta. rewrite ce_tree_id, ce_block_id, ce_concealed_id.
  split; [|split; [|split; [|split; [|split]]]].
  - unfold tree_commit_id. rewrite TC. reflexivity.
  - unfold block_commit_id. change (block_conceal md (block_of_tree t)) with (tree_conceal md t). rewrite TC. reflexivity.
  - reflexivity.
  - exact TC.
  - exact TC.
  - apply tree_root_ok. apply (gt_depth t G).
Qed.

(** ** C27 *)
Lemma source_entropy src rng t : valid_source src -> match rng with Some e => (e < 2 ^ 64)%N | None => True end ->
  try_commit src rng = Ret (Ok t) -> (mt_entropy t < 2 ^ 64)%N.
Proof.
  intros V R E. pose proof (c04_placement _ _ _ V E) as [_ [_ [_ [P _]]]]. destruct V as [_ [_ [_ V]]].
  destruct (ms_static_entropy src); [congruence|]. rewrite P in R. exact R.
Qed.
Lemma c27_tree_binding : forall (H : Hasher) md src1 rng1 t1 src2 rng2 t2 c
  (valid1 : valid_source src1) (valid2 : valid_source src2)
  (rng1_u64 : match rng1 with Some e => (e < 2 ^ 64)%N | None => True end)
  (rng2_u64 : match rng2 with Some e => (e < 2 ^ 64)%N | None => True end)
  (made1 : try_commit src1 rng1 = Ret (Ok t1)) (made2 : try_commit src2 rng2 = Ret (Ok t2))
  (id1 : tree_commit_id md t1 = Ret c) (id2 : tree_commit_id md t2 = Ret c),
  (mt_depth t1 = mt_depth t2 /\ mt_cofactor t1 = mt_cofactor t2 /\ mt_messages t1 = mt_messages t2 /\
   mt_map t1 = mt_map t2 /\
   ((N.of_nat (length (mt_messages t1)) < 2 ^ N.of_nat (mt_depth t1))%N -> mt_entropy t1 = mt_entropy t2)) \/
  collision_in (tree_pre t1 ++ tree_pre t2).
Proof.
  intros H md src1 rng1 t1 src2 rng2 t2 c V1 V2 R1 R2 E1 E2 I1 I2.
  pose proof (try_commit_good _ _ _ V1 E1) as G1. pose proof (try_commit_good _ _ _ V2 E2) as G2.
  rewrite (tree_commit_ok md t1 G1) in I1. rewrite (tree_commit_ok md t2 G2) in I2.
  apply tree_binding; try assumption.
  - exact (source_entropy _ _ _ V1 R1 E1).
  - exact (source_entropy _ _ _ V2 R2 E2).
  - congruence.
Qed.

(** ** C29 *)
Lemma c29_positions : forall pid cofactor depth (u5 : depth <= 31),
  protocol_id_pos pid cofactor depth = (le_val pid mod N.max 1 (2 ^ N.of_nat depth - cofactor))%N /\
  (protocol_id_pos pid cofactor depth < 2 ^ N.of_nat depth)%N.
Proof. intros pid cof D HD. destruct (pos_spec pid cof D HD) as [E B]. rewrite E. split; [reflexivity|exact B]. Qed.

(** ** C30 *)
Lemma u32_sub_ok md a b : (b <= a)%N -> u32_sub md a b = Ret (a - b)%N.
Proof. intros L. unfold u32_sub. apply N.leb_le in L. rewrite L. reflexivity. Qed.
Lemma c30_widths : forall (H : Hasher) md src rng t
  (valid : valid_source src) (made : try_commit src rng = Ret (Ok t)),
  let usable := (2 ^ N.of_nat (mt_depth t) - mt_cofactor t)%N in
  (mt_cofactor t <= 500)%N /\ (mt_cofactor t < 2 ^ N.of_nat (mt_depth t))%N /\
  (N.of_nat (length (ms_messages src)) <= usable)%N /\
  (forall p, (s_pos p (mt_cofactor t) (mt_depth t) < usable)%N) /\
  mt_factored_width md t = Ret usable /\
  (forall b, derived md t b -> mb_factored_width md b = Ret usable) /\
  (forall b pid pf, derived md t b -> to_merkle_proof md b pid = Ret (Ok pf) -> mp_factored_width md pf = Ret usable).
Proof.
  intros H md src rng t V E. cbv zeta. pose proof (try_commit_good _ _ _ V E) as G.
  pose proof (c04_placement _ _ _ V E) as [_ [_ [Ms _]]]. rewrite <- Ms.
  pose proof (gt_cofactor_width t G) as CW.
  split; [apply (gt_cofactor t G)|split; [exact CW|split; [apply (gt_room t G)|split; [|split; [|split]]]]].
  - intros p. unfold s_pos. replace (N.max 1 _) with (2 ^ N.of_nat (mt_depth t) - mt_cofactor t)%N by lia.
    apply N.mod_lt. lia.
  - unfold mt_factored_width, mt_width_limit, width_of. apply u32_sub_ok. lia.
  - intros b D. destruct (derived_view md t b G D) as [pt [_ [_ [Vd [Vc _]]]]].
    unfold mb_factored_width, mb_width_limit, width_of. rewrite Vd, Vc. apply u32_sub_ok. lia.
  - intros b pid pf D P. destruct (derived_view md t b G D) as [pt VB].
    assert (I : In pid (map fst (pleaves pt))).
    { destruct (mem (map fst (pleaves pt)) pid) eqn:I; [apply mem_In; exact I|].
      assert (NI : ~ In pid (map fst (pleaves pt))) by (intros X; apply mem_In in X; congruence).
      exfalso. destruct VB as [[B1 [B2 [B3 B4]]] _].
      destruct (conceal_except_err md b pt [pid] pid B3 (pwf_loose_of _ _ _ B4) (or_introl eq_refl) NI) as [q [C _]].
      unfold to_merkle_proof, conceal_other in P. rewrite C in P. discriminate P. }
    apply in_map_iff in I as [[pid' msg] [EE I]]. cbn in EE. subst pid'.
    destruct (view_proof md t b pt pid msg G VB I) as [pf' [b' [P1 [P2 [P3 [P4 [P5 [P6 [P7 [P8 _]]]]]]]]]].
    rewrite P in P1. injection P1 as <-.
    unfold mp_factored_width, mp_width_limit, mp_depth, u5_with. rewrite P6, P8.
    pose proof (gt_depth t G) as GD. replace (mt_depth t <=? u5_max) with true by (symmetry; apply Nat.leb_le; exact GD).
    cbn [bind]. apply u32_sub_ok. unfold width_of. lia.
Qed.
Lemma c30_decoded_refuted :
  (exists t, valid_tree t /\ mt_factored_width Debug t = Panic PArith /\
             mt_factored_width Release t = Ret (2 ^ 32 - 1)%N) /\
  (exists b, valid_block b /\ mb_factored_width Debug b = Panic PArith) /\
  (exists p, valid_proof p /\ mp_factored_width Debug p = Panic PArith).
Proof.
  split; [|split].
  - exists (MTree Sha256t 0 0 2 [] []). unfold valid_tree. cbn. repeat split; try lia. constructor.
  - exists (MBlock Sha256t 0 2 [ConcealedNode 0 (b32_fill x00)] None). unfold valid_block. cbn.
    repeat split; try lia. constructor; [cbn; lia|constructor].
  - exists (MProof Sha256t 0 2 []). unfold valid_proof. cbn. repeat split; lia.
Qed.

(** ** C31 *)
Lemma placed_sorted D cof t : pwf D 0 t -> placed D cof t -> D <= 31 ->
  StronglySorted N.lt (map (fun e => s_pos (fst e) cof D) (pleaves t)).
Proof.
  intros W P HD. pose proof (leaves_at_sorted D 0 0 t W) as S.
  rewrite <- (pleaves_at_leaves D 0 0 t), map_map.
  replace (map (fun x => s_pos (fst (snd x)) cof D) (pleaves_at D 0 0 t)) with (map fst (pleaves_at D 0 0 t)); [exact S|].
  apply map_ext_in. intros [q [p m]] I. cbn. rewrite (P q p m I). apply pos_spec. exact HD.
Qed.
Lemma c31_known_proofs : forall (H : Hasher) md src rng t b
  (valid : valid_source src) (made : try_commit src rng = Ret (Ok t)) (from : derived md t b),
  let known := known_leaves (mb_cross_section b) in
  exists ps c, into_known_proofs md b = Ret ps /\ tree_commit_id md t = Ret c /\
    map fst ps = map fst known /\
    Forall2 (fun e x => convolve md (snd x) (fst e) (snd e) = Ret (Ok c)) known ps /\
    StronglySorted N.lt (map (fun x => mp_pos (snd x)) ps) /\ NoDup (map fst ps).
Proof.
  intros H md src rng t b V E D. cbv zeta. pose proof (try_commit_good _ _ _ V E) as G.
  destruct (derived_view md t b G D) as [pt VB].
  pose proof VB as [[B1 [B2 [B3 B4]]] [VW [Vd [Vc Vm]]]].
  assert (KL : known_leaves (mb_cross_section b) = pleaves pt) by (rewrite B3; apply known_leaves_flatten).
  rewrite KL. destruct (known_proofs_ok md t b pt (pleaves pt) G VB (incl_refl _)) as [ps [K1 [K2 K3]]].
  exists ps, (pcommit (mt_depth t) (mt_cofactor t) (tree_full t)).
  pose proof (view_block_placed t b pt G VB) as PL.
  pose proof (placed_sorted _ _ _ B4 PL B1) as SO. rewrite Vd, Vc in SO.
  split; [|split; [apply tree_commit_ok; exact G|split; [exact K2|split; [|split]]]].
  - unfold into_known_proofs, known_protocol_ids. rewrite KL. exact K1.
  - clear -K3. induction K3 as [|e x l l' [_ [_ X]] F IH]; constructor; [exact X|exact IH].
  - replace (map (fun x => mp_pos (snd x)) ps) with (map (fun e => s_pos (fst e) (mt_cofactor t) (mt_depth t)) (pleaves pt)); [exact SO|].
    clear -K3. induction K3 as [|e x l l' [_ [X _]] F IH]; cbn; [reflexivity|]. rewrite X, IH. reflexivity.
  - rewrite K2. apply sorted_lt_NoDup in SO.
    apply (NoDup_map_inv (fun p => s_pos p (mt_cofactor t) (mt_depth t))). rewrite map_map. exact SO.
Qed.
Lemma c31_tree_proofs : forall (H : Hasher) md src rng t
  (valid : valid_source src) (made : try_commit src rng = Ret (Ok t)),
  exists ps c, into_proofs md t = Ret ps /\ tree_commit_id md t = Ret c /\
    (forall p, In p (map fst ps) <-> In p (map fst (ms_messages src))) /\ NoDup (map fst ps) /\
    StronglySorted N.lt (map (fun x => mp_pos (snd x)) ps) /\
    (forall p pf msg, In (p, pf) ps -> In (p, msg) (ms_messages src) -> convolve md pf p msg = Ret (Ok c)).
Proof.
  intros H md src rng t V E. pose proof (try_commit_good _ _ _ V E) as G.
  pose proof (c04_placement _ _ _ V E) as [_ [_ [Ms _]]].
  destruct (c31_known_proofs H md src rng t (block_of_tree t) V E (dv_tree md t)) as [ps [c [A1 [A2 [A3 [A4 [A5 A6]]]]]]].
  assert (KL : known_leaves (mb_cross_section (block_of_tree t)) = pleaves (tree_full t))
    by (rewrite block_of_tree_flatten; apply known_leaves_flatten).
  rewrite KL in A3, A4.
  assert (PM : forall p m, In (p, m) (pleaves (tree_full t)) <-> In (p, m) (ms_messages src)).
  { intros p m. rewrite <- Ms. apply tree_full_pleaves. exact G. }
  exists ps, c. split; [exact A1|split; [exact A2|split; [|split; [exact A6|split; [exact A5|]]]]].
  - intros p. rewrite A3, !in_map_iff. split; intros [[q m] [<- I]]; exists (q, m); split; auto; apply PM; exact I.
  - intros p pf msg IP IM. apply PM in IM.
    assert (X : exists e, In e (pleaves (tree_full t)) /\ fst e = p /\ convolve md pf (fst e) (snd e) = Ret (Ok c)).
    { clear -A3 A4 IP. revert A3. induction A4 as [|e x l l' X F IH]; cbn; intros A3; [destruct IP|].
      injection A3 as A3 A3'. destruct IP as [->|IP].
      - exists e. cbn in *. auto.
      - destruct (IH IP A3') as [e' [? ?]]. exists e'. auto. }
    destruct X as [[q m] [I [Q C]]]. cbn in Q, C. subst q.
    assert (m = msg); [|congruence].
    rewrite A3 in A6. clear -A6 I IM. induction (pleaves (tree_full t)) as [|[a b] l IH]; [destruct I|].
    cbn in A6. inversion A6 as [|? ? NI ND]; subst.
    destruct I as [I|I], IM as [IM|IM]; try congruence; auto.
    + injection I as -> ->. exfalso. apply NI. apply in_map_iff. exists (p, msg). auto.
    + injection IM as -> ->. exfalso. apply NI. apply in_map_iff. exists (p, m). auto.
Qed.

(** ** C32 *)
Lemma c32_known_map : forall (H : Hasher) md src rng t
  (valid : valid_source src) (made : try_commit src rng = Ret (Ok t)),
  to_known_message_map (block_of_tree t) = Ret (ms_messages src) /\
  (forall b, derived md t b -> exists m, to_known_message_map b = Ret m /\ om_sorted b32_ltb m = true /\
     incl m (ms_messages src) /\
     forall e, In e m <-> In e (known_leaves (mb_cross_section b))) /\
  (forall b ids b' n, derived md t b -> conceal_except md b ids = Ret (b', Ok n) ->
     exists m m', to_known_message_map b = Ret m /\ to_known_message_map b' = Ret m' /\
       om_sorted b32_ltb m' = true /\
       forall p x, In (p, x) m' <-> In (p, x) m /\ In p ids) /\
  (forall b1 b2 b' r, derived md t b1 -> derived md t b2 -> merge_reveal md b1 b2 = Ret (b', r) ->
     exists m1 m2 m', to_known_message_map b1 = Ret m1 /\ to_known_message_map b2 = Ret m2 /\
       to_known_message_map b' = Ret m' /\ om_sorted b32_ltb m' = true /\
       forall e, In e m' <-> In e m1 \/ In e m2).
Proof.
  intros H md src rng t V E. pose proof (try_commit_good _ _ _ V E) as G.
  pose proof (c04_placement _ _ _ V E) as [_ [_ [Ms _]]].
  split; [|split; [|split]].
  - rewrite <- Ms. apply known_map_tree. exact G.
  - intros b D. destruct (derived_view md t b G D) as [pt VB]. pose proof VB as [[B1 [B2 [B3 B4]]] _].
    destruct (view_map t b pt G VB) as [m [M1 [M2 M3]]]. exists m.
    split; [exact M1|split; [exact M2|split]].
    + intros [p x] I. rewrite <- Ms. apply M3 in I. exact (view_block_leaves t b pt p x G VB I).
    + intros [p x]. rewrite B3, known_leaves_flatten. apply M3.
  - intros b ids b' n D C. destruct (derived_view md t b G D) as [pt VB].
    destruct (view_conceal_gen md t b pt ids G VB) as [b1 [r1 [pt1 [C1 [VB1 R1]]]]].
    rewrite C in C1. injection C1 as <- <-. destruct R1 as [_ ->].
    destruct (view_map t b pt G VB) as [m [M1 [M2 M3]]].
    destruct (view_map t b' _ G VB1) as [m' [M1' [M2' M3']]].
    exists m, m'. split; [exact M1|split; [exact M1'|split; [exact M2'|]]].
    intros p x. rewrite M3', M3, prestrict_leaves, filter_In. cbn [fst]. rewrite mem_In. tauto.
  - intros b1 b2 b' r D1 D2 M. destruct (derived_view md t b1 G D1) as [t1 VB1].
    destruct (derived_view md t b2 G D2) as [t2 VB2].
    destruct (view_merge md t b1 b2 t1 t2 G VB1 VB2) as [b0 [M0 [VB0 _]]].
    rewrite M in M0. injection M0 as <- _.
    destruct (view_map t b1 _ G VB1) as [m1 [M1 [_ M1']]].
    destruct (view_map t b2 _ G VB2) as [m2 [M2 [_ M2']]].
    destruct (view_map t b' _ G VB0) as [m' [M3 [M3s M3']]].
    exists m1, m2, m'. split; [exact M1|split; [exact M2|split; [exact M3|split; [exact M3s|]]]].
    intros [p x]. rewrite M3', M1', M2'.
    pose proof VB1 as [_ [W1 _]]. pose proof VB2 as [_ [W2 _]].
    pose proof (pview_compat _ _ _ _ _ W1 W2) as CP.
    rewrite <- (pleaves_at_leaves (mt_depth t) 0 0 (pjoin t1 t2)), <- (pleaves_at_leaves (mt_depth t) 0 0 t1),
      <- (pleaves_at_leaves (mt_depth t) 0 0 t2), !in_map_iff.
    pose proof (pjoin_leaves_at (mt_depth t) _ 0 0 _ _ CP) as J. split.
    + intros [y [EY I]]. apply J in I as [I|I]; [left|right]; exists y; auto.
    + intros [[y [EY I]]|[y [EY I]]]; exists y; (split; [exact EY|]); apply J; auto.
Qed.
