(** C78: sessions with untrusted parties. *)
From Verif Require Import Base BaseFacts OrdMap OrdMapFacts SpecHash HashFacts SpecTree SpecFull SpecCommit SpecValid SpecCodec SpecSession
  SpecBlock SpecDerived SpecLocal SpecEngine Engine Digest Dumb BlockInv EngineProofs MpcAtoms MpcTree MpcBlock Strict TreeFacts ConcealProofs PathProofs MergeProofs MpcTreeProofs DerivedProofs LocalProofs
  StrictProofs CodecProofs SessionProofs TheoremsMpc TheoremsBlock TheoremsMore TheoremsMisc TheoremsExt TheoremsAdv.
Local Open Scope nat_scope.

(** ** C78 *)
Lemma tree_id_is {H : Hasher} md t c : good_tree t -> tree_commit_id md t = Ret c ->
  c = pcommit (mt_depth t) (mt_cofactor t) (tree_full t).
Proof. intros G E. rewrite (tree_commit_any md t (gt_depth _ G)) in E. injection E as ->. reflexivity. Qed.

Lemma view_src {H : Hasher} src rng t b pt p m :
  valid_source src -> try_commit src rng = Ret (Ok t) -> view_block t b pt -> In (p, m) (known_leaves (mb_cross_section b)) ->
  In (p, m) (ms_messages src).
Proof.
  intros V E Vb I. pose proof (try_commit_good _ _ _ V E) as G. destruct (c04_placement _ _ _ V E) as [_ [_ [Em _]]].
  pose proof Vb as [[_ [_ [X _]]] _]. rewrite X, known_leaves_flatten in I. rewrite <- Em. eapply view_block_leaves; eassumption.
Qed.

Lemma c78_truth : forall (H : Hasher) md md' src rng t c L b
  (valid : valid_source src) (made : try_commit src rng = Ret (Ok t)) (tree_id : tree_commit_id md' t = Ret c)
  (held : session md c L b),
  (block_commit_id md b = Ret c /\ mb_method b = ms_method src /\ mb_depth b = mt_depth t /\ mb_cofactor b = mt_cofactor t /\
   (forall p m, In (p, m) (known_leaves (mb_cross_section b)) -> In (p, m) (ms_messages src)) /\
   exists pt, block_tree b pt /\ well_placed (mt_depth t) (mt_cofactor t) pt /\
     pview (2 ^ N.of_nat (mt_depth t)) 0 pt (tree_full t)) \/
  collision_in (L ++ tree_pre t).
Proof.
  intros H md md' src rng t c L b V E It S. pose proof (try_commit_good _ _ _ V E) as G. apply tree_id_is in It; [|exact G].
  destruct (session_view md t c L b G It S) as [[pt Vb]|K]; [left|right; exact K].
  split; [rewrite It; apply (view_block_commit md t b pt G Vb)|]. split; [apply method_eq|].
  pose proof Vb as [B [PV [ED [EC _]]]]. split; [exact ED|split; [exact EC|]].
  split; [intros p m; apply (view_src src rng t b pt p m V E Vb)|].
  exists pt. split; [exact B|split; [|exact PV]]. pose proof (view_block_placed t b pt G Vb) as P. rewrite ED, EC in P.
  intros q p m I. rewrite (P q p m I). symmetry. symmetry. apply pos_spec. exact (gt_depth _ G).
Qed.

Lemma c78_operations : forall (H : Hasher) md md' src rng t c L L' b b'
  (valid : valid_source src) (made : try_commit src rng = Ret (Ok t)) (tree_id : tree_commit_id md' t = Ret c)
  (held : session md c L b) (held' : session md c L' b'),
  ((forall ids, exists b2 r, conceal_except md b ids = Ret (b2, r)) /\
   (exists b2 n, merge_reveal md b b' = Ret (b2, Ok n) /\
      forall p m, In (p, m) (known_leaves (mb_cross_section b2)) <->
        In (p, m) (known_leaves (mb_cross_section b)) \/ In (p, m) (known_leaves (mb_cross_section b'))) /\
   (forall p m, In (p, m) (known_leaves (mb_cross_section b)) ->
      exists pf, to_merkle_proof md b p = Ret (Ok pf) /\ to_merkle_proof md (block_of_tree t) p = Ret (Ok pf) /\
        convolve md pf p m = Ret (Ok c)) /\
   (forall p, ~ In p (map fst (known_leaves (mb_cross_section b))) -> to_merkle_proof md b p = Ret (Err p))) \/
  collision_in (L ++ L' ++ tree_pre t).
Proof.
  intros H md md' src rng t c L L' b b' V E It S S'. pose proof (try_commit_good _ _ _ V E) as G. apply tree_id_is in It; [|exact G].
  destruct (session_view md t c L b G It S) as [[pt Vb]|K].
  2: { right. eapply coll_incl; [|exact K]. intros x HI. rewrite !in_app_iff in *. tauto. }
  destruct (session_view md t c L' b' G It S') as [[pt' Vb']|K].
  2: { right. apply coll_app_r. exact K. }
  left. split; [|split; [|split]].
  - intros ids. destruct (view_conceal_gen md t b pt ids G Vb) as [b2 [r [_ [Q _]]]]. eauto.
  - destruct (view_merge md t b b' pt pt' G Vb Vb') as [b2 [M [V2 _]]]. exists b2. eexists. split; [exact M|]. intros p m.
    pose proof V2 as [[_ [_ [X2 _]]] _]. pose proof Vb as [[_ [_ [X _]]] [PV _]]. pose proof Vb' as [[_ [_ [X' _]]] [PV' _]].
    rewrite X2, X, X', !known_leaves_flatten.
    rewrite <- !(pleaves_at_leaves (mt_depth t) 0 0). rewrite !in_map_iff.
    pose proof (pjoin_leaves_at (mt_depth t) _ 0 0 pt pt' (pview_compat _ _ _ _ _ PV PV')) as J. split.
    + intros [e [Q I]]. apply J in I as [I|I]; [left|right]; exists e; auto.
    + intros [[e [Q I]]|[e [Q I]]]; exists e; (split; [exact Q|apply J; auto]).
  - intros p m I. pose proof (view_src src rng t b pt p m V E Vb I) as Is.
    destruct (c04_placement _ _ _ V E) as [_ [_ [Em _]]]. rewrite <- Em in Is.
    pose proof (view_block_tree t G) as Vt. pose proof Vt as [[_ [_ [Xt _]]] _].
    assert (It' : In (p, m) (known_leaves (mb_cross_section (block_of_tree t)))).
    { rewrite Xt, known_leaves_flatten. apply tree_full_pleaves; assumption. }
    rewrite (proof_contents md t b p m G (ex_intro _ pt Vb) I).
    rewrite (proof_contents md t _ p m G (ex_intro _ _ Vt) It').
    eexists. split; [reflexivity|split; [reflexivity|]].
    destruct (view_proof md t b pt p m G Vb) as [pf [_ [P1 [_ [_ [_ [_ [_ [_ [_ [_ P2]]]]]]]]]]].
    { pose proof Vb as [[_ [_ [X _]]] _]. rewrite X, known_leaves_flatten in I. exact I. }
    rewrite (proof_contents md t b p m G (ex_intro _ pt Vb) I) in P1. injection P1 as <-. rewrite P2, It. reflexivity.
  - intros p U. apply (c10_proof_unknown H); [exists pt; exact (proj1 Vb)|exact U].
Qed.

Lemma c78_disclosure : forall (H : Hasher) md md' src rng t c L b ids b' n
  (valid : valid_source src) (made : try_commit src rng = Ret (Ok t)) (tree_id : tree_commit_id md' t = Ret c)
  (held : session md c L b) (done : conceal_except md b ids = Ret (b', Ok n)),
  (exists n', conceal_except md (block_of_tree t) ids = Ret (b', Ok n')) \/ collision_in (L ++ tree_pre t).
Proof.
  intros H md md' src rng t c L b ids b' n V E It S Dn. pose proof (try_commit_good _ _ _ V E) as G. apply tree_id_is in It; [|exact G].
  destruct (session_view md t c L b G It S) as [[pt Vb]|K]; [|right; exact K].
  pose proof (view_block_tree t G) as Vt. pose proof Vb as [B [PV [ED [EC _]]]].
  destruct (view_conceal_gen md t _ _ ids G Vt) as [b2 [r [pt' [Q [_ R]]]]]. destruct r as [n2|q].
  - destruct (c61_conceal H md b (block_of_tree t) pt (tree_full t) c ids b' n b2 n2 B (proj1 Vt)) as [X|X].
    + intros q p m I. rewrite (view_block_placed t b pt G Vb q p m I). symmetry. symmetry. apply pos_spec. rewrite ED. exact (gt_depth _ G).
    + intros q p m I. rewrite (view_block_placed t _ _ G Vt q p m I). symmetry. symmetry. apply pos_spec. exact (gt_depth _ G).
    + rewrite It. apply (view_block_commit md t b pt G Vb).
    + rewrite It. apply (view_block_commit md t _ _ G Vt).
    + exact Dn.
    + exact Q.
    + left. subst b2. eauto.
    + right. apply coll_app_r. eapply coll_incl; [|exact X].
      intros x HI. apply in_app_or in HI as [HI|HI]; [exact (view_pre t b pt Vb x HI)|exact (view_pre t _ _ Vt x HI)].
  - exfalso. destruct R as [R1 [R2 _]]. apply R2. pose proof (conceal_ok_known _ _ _ _ _ _ B Dn q R1) as Kq.
    rewrite (wf_known b pt B) in Kq. apply in_map_iff in Kq as [e [Q' I]]. apply in_map_iff. exists e. split; [exact Q'|].
    eapply pview_leaves; eassumption.
Qed.

Lemma derived_entropy {H : Hasher} md t b : derived md t b -> mb_entropy b = Some (mt_entropy t) \/ mb_entropy b = None.
Proof.
  induction 1 as [|b ids b' r Hb IH E|b1 b2 b' r H1 IH1 H2 IH2 E|b pid msg pf b' Hb IH HI E1 E2].
  - left. reflexivity.
  - right. rewrite conceal_except_unfold in E. destruct (missing ids _); [|injection E as <- _; reflexivity].
    apply bind_inv in E as [[xs c] [_ E]]. injection E as <- _. reflexivity.
  - destruct r as [n|e]; [destruct (c16_merge_any _ _ _ _ _ _ E) as [c [_ [_ [_ [_ [_ [_ ->]]]]]]]; exact IH1|].
    assert (Q : b' = b1); [|subst; exact IH1].
    unfold merge_reveal in E. apply bind_inv in E as [c1 [_ E]]. apply bind_inv in E as [c2 [_ E]].
    destruct (negb _); [injection E as <- _; reflexivity|]. apply bind_inv in E as [xs [_ E]].
    destruct xs as [|x xs]; [discriminate|]. cbv zeta in E. repeat (apply bind_inv in E as [? [_ E]]). discriminate E.
  - right. unfold block_with in E2. repeat (apply bind_inv in E2 as [? [_ E2]]). cbv zeta in E2.
    destruct (negb _); [discriminate|]. apply bind_inv in E2 as [[dir rv] [_ E2]].
    apply bind_inv in E2 as [? [_ E2]]. injection E2 as <-. reflexivity.
Qed.

Lemma c78_honest : forall (H : Hasher) md md' src rng t c b
  (valid : valid_source src) (rng_u64 : match rng with Some e => (e < 2 ^ 64)%N | None => True end)
  (made : try_commit src rng = Ret (Ok t)) (tree_id : tree_commit_id md' t = Ret c) (from_tree : derived md t b),
  exists L, session md c L b /\ incl L (tree_pre t).
Proof.
  intros H md md' src rng t c b V R E It D. pose proof (try_commit_good _ _ _ V E) as G. apply tree_id_is in It; [|exact G].
  destruct (derived_view md t b G D) as [pt Vb]. exists (pcommit_pre (mb_depth b) (mb_cofactor b) pt).
  split; [|exact (view_pre t b pt Vb)]. pose proof Vb as [B _].
  apply (ss_block md c (enc c_merkle_block b)); [|exact B|rewrite It; apply (view_block_commit md t b pt G Vb)].
  rewrite <- (app_nil_r (enc c_merkle_block b)). apply (law_rt _ valid_block); [exact c_merkle_block_lawful|].
  destruct B as [HD [Hc [Hx Hw]]]. split; [exact HD|split; [exact Hc|split; [|split]]].
  - rewrite Hx. pose proof (flatten_length_sp _ _ _ Hw) as L. unfold sp in L. rewrite Nat.sub_0_r in L.
    pose proof (flatten_nonempty 0 pt).
    assert (2 ^ N.of_nat (mb_depth b) <= 2 ^ 31)%N by (apply N.pow_le_mono_r; lia).
    assert (2 ^ 31 < 2 ^ 32)%N by reflexivity. destruct (flatten 0 pt); [congruence|cbn [length] in *; lia].
  - rewrite Hx. apply (flatten_valid (mb_depth b)); assumption.
  - destruct (derived_entropy md t b D) as [-> | ->]; [|exact I]. exact (source_entropy src rng t V R E).
Qed.

(** ** C79 *)
Lemma c79_dumb : forall (H : Hasher) md,
  (valid_leaf dumb_leaf /\ valid_node dumb_merkle_node /\ valid_concealed dumb_concealed /\ valid_block dumb_block /\
   valid_tree dumb_tree /\ valid_proof default_proof) /\
  block_tree dumb_block (PConc (b32_fill x00)) /\
  block_commit_id md dumb_block = Ret (HASH (s_commit 1 0 (b32_fill x00))) /\
  tree_commit_id md dumb_tree = Ret (HASH (s_commit 0 0 (HASH (s_entropy 0 0)))) /\
  block_commit_id md (block_of_tree dumb_tree) = tree_commit_id md dumb_tree.
Proof.
  intros H md.
  assert (B : block_tree dumb_block (PConc (b32_fill x00))) by (repeat split; cbn; lia).
  split; [|split; [exact B|]].
  - repeat split; cbn; try lia; repeat constructor; cbn; lia.
  - split; [apply (wf_commit md dumb_block _ B)|]. rewrite tree_commit_any by (cbn; lia).
    split; [reflexivity|].
    assert (B' : block_tree (block_of_tree dumb_tree) (PConc (HASH (s_entropy 0 0)))).
    { split; [cbn; lia|split; [cbn; lia|split; [|cbn; lia]]]. rewrite block_of_tree_flatten. reflexivity. }
    exact (wf_commit md _ _ B').
Qed.
Lemma c79_default_proof : forall (H : Hasher) md method pid msg entropy rng t
  (valid : valid_source (MultiSource method 0 [(pid, msg)] entropy))
  (made : try_commit (MultiSource method 0 [(pid, msg)] entropy) rng = Ret (Ok t)),
  exists c, tree_commit_id md t = Ret c /\ convolve md default_proof pid msg = Ret (Ok c) /\
    to_merkle_proof md (block_of_tree t) pid = Ret (Ok default_proof).
Proof.
  intros H md mth pid msg ent rng t V E. pose proof (try_commit_good _ _ _ V E) as G.
  destruct (c04_placement _ _ _ V E) as [_ [_ [Em _]]].
  assert (EN : exists e, match ent with Some x => Some x | None => rng end = Some e).
  { destruct ent as [x|]; [eauto|]. destruct rng as [x|]; [eauto|]. vm_compute in E. discriminate. }
  destruct EN as [e EN]. destruct (c62_single H md mth pid msg ent rng e EN) as [t' [E' [D [C [_ It]]]]].
  rewrite E in E'. injection E' as <-. eexists. split; [exact It|].
  assert (Sp : s_pos pid 0 0 = 0%N).
  { unfold s_pos. change (N.max 1 (2 ^ N.of_nat 0 - 0))%N with 1%N. apply N.mod_1_r. }
  split.
  - rewrite convolve_spec by (cbn; lia). cbv zeta. cbn [default_proof mp_cofactor mp_path length mp_pos].
    destruct (pos_spec pid 0 0 ltac:(lia)) as [-> _]. rewrite Sp. reflexivity.
  - rewrite (proof_contents md t (block_of_tree t) pid msg G (ex_intro _ _ (view_block_tree t G))).
    + rewrite D, C, Sp. unfold default_proof. rewrite (method_eq (mt_method t) Sha256t). f_equal. f_equal. f_equal.
      unfold tree_aside. rewrite D. reflexivity.
    + rewrite block_of_tree_flatten, known_leaves_flatten. apply tree_full_pleaves; [exact G|]. rewrite Em. left. reflexivity.
Qed.

Lemma has_fqn_inj t q q' : has_fqn t q -> has_fqn t q' -> q = q'.
Proof. unfold has_fqn. destruct q, q'. cbn. congruence. Qed.
Lemma step_for_fun f s s' : step_for f s -> step_for f s' -> s = s'.
Proof.
  destruct f; cbn;
    try (intros [q [Q ->]] [q' [Q' ->]]; rewrite (has_fqn_inj _ _ _ Q Q'); reflexivity).
  intros [kk [q [K1 [Q ->]]]] [k' [q' [K' [Q' ->]]]]. rewrite (has_fqn_inj _ _ _ Q Q'), (has_fqn_inj _ _ _ K1 K'). reflexivity.
Qed.
Lemma uniform_layout {H : Hasher} md tag fs gs e e' :
  run md fs (engine_new tag) = Ret e -> run md gs (engine_new tag) = Ret e' ->
  Forall2 (fun f g => forall s, step_for f s -> step_for g s) fs gs -> into_layout e = into_layout e'.
Proof.
  intros R R' U. destruct (c34_layout H md tag fs e R) as [_ S]. destruct (c34_layout H md tag gs e' R') as [_ S'].
  clear R R'. revert S S'. generalize (into_layout e) (into_layout e'). induction U as [|f g fs' gs' FG U IH]; intros l l' S S';
    inversion S; inversion S'; subst; [reflexivity|]. f_equal; [eapply step_for_fun; [apply FG; eassumption|assumption]|].
  apply IH; assumption.
Qed.
Lemma c79_fields : forall (H : Hasher) A md tag idty (fields_of : A -> list field) dumb v l e
  (uniform : Forall2 (fun f g => forall s, step_for f s -> step_for g s) (fields_of dumb) (fields_of v))
  (published : commitment_layout md (CommitEncode tag idty (fun md v e => run md (fields_of v) e)) dumb = Ret l)
  (committed : commit md (CommitEncode tag idty (fun md v e => run md (fields_of v) e)) v = Ret e),
  cl_tag l = tag /\ has_fqn idty (cl_idty l) /\ into_layout e = cl_fields l.
Proof.
  intros H A md tag idty fo dumb v l e U L C. unfold commitment_layout in L. apply bind_inv in L as [e1 [C1 L]].
  apply bind_inv in L as [f [F L]]. injection L as <-. unfold commit in C, C1.
  apply bind_inv in C as [e2 [C2 C]]. apply bind_inv in C1 as [e3 [C3 C1]]. injection C as <-. injection C1 as <-.
  cbn [ce_encode ce_tag] in C2, C3. cbn [ce_idty] in F. cbn [cl_tag cl_idty cl_fields ce_tag]. split; [reflexivity|split].
  - unfold commitment_fqn in F. destruct idty as [lib [n|]]; [|discriminate]. cbn in F. injection F as <-. reflexivity.
  - symmetry. exact (uniform_layout md tag _ _ _ _ C3 C2 U).
Qed.
Lemma c79_derived : forall (H : Hasher) md tag idty,
  (forall A (T : typed A) dumb v l e, commitment_layout md (derive_strict tag idty T) dumb = Ret l ->
     commit md (derive_strict tag idty T) v = Ret e -> into_layout e = cl_fields l) /\
  (forall A B (T : typed B) (inner : A -> B) dumb v l e, commitment_layout md (derive_transparent tag idty T inner) dumb = Ret l ->
     commit md (derive_transparent tag idty T inner) v = Ret e -> into_layout e = cl_fields l) /\
  (forall A B C (c1 : mode -> A -> outcome B) t2 (c2 : mode -> B -> outcome C) CT dumb v l e,
     commitment_layout md (derive_conceal tag idty c1 t2 c2 CT) dumb = Ret l ->
     commit md (derive_conceal tag idty c1 t2 c2 CT) v = Ret e -> into_layout e = cl_fields l) /\
  (forall A t (leaves : A -> list bytes32) dumb v l e, commitment_layout md (derive_merklize tag idty t leaves) dumb = Ret l ->
     commit md (derive_merklize tag idty t leaves) v = Ret e -> into_layout e = cl_fields l).
Proof.
  intros H md tag idty.
  assert (K : forall A (I : commit_encode A) dumb v l e, ce_tag I = tag ->
    commitment_layout md I dumb = Ret l -> commit md I v = Ret e ->
    exists e2 e3, ce_encode I md v (engine_new tag) = Ret e2 /\ ce_encode I md dumb (engine_new tag) = Ret e3 /\
      into_layout e = into_layout e2 /\ cl_fields l = into_layout e3).
  { intros A I dumb v l e TG L C. unfold commitment_layout in L. apply bind_inv in L as [e1 [C1 L]].
    apply bind_inv in L as [f [_ L]]. injection L as <-. unfold commit in C, C1. rewrite TG in C, C1.
    apply bind_inv in C as [e2 [C2 C]]. apply bind_inv in C1 as [e3 [C3 C1]]. injection C as <-. injection C1 as <-.
    exists e2, e3. repeat split; assumption. }
  assert (R1 : forall f e, run1 md f (engine_new tag) = Ret e -> run md [f] (engine_new tag) = Ret e).
  { intros f e E. cbn [run]. rewrite E. reflexivity. }
  split; [|split; [|split]].
  - intros A T dumb v l e L C. destruct (K _ (derive_strict tag idty T) dumb v l e eq_refl L C) as [e2 [e3 [E2 [E3 [-> ->]]]]].
    apply (R1 (FSerialized T v)) in E2. apply (R1 (FSerialized T dumb)) in E3.
    apply (uniform_layout md tag _ _ _ _ E2 E3). repeat constructor. intros s X. exact X.
  - intros A B T inner dumb v l e L C. destruct (K _ (derive_transparent tag idty T inner) dumb v l e eq_refl L C) as [e2 [e3 [E2 [E3 [-> ->]]]]].
    apply (R1 (FSerialized T (inner v))) in E2. apply (R1 (FSerialized T (inner dumb))) in E3.
    apply (uniform_layout md tag _ _ _ _ E2 E3). repeat constructor. intros s X. exact X.
  - intros A B Cc c1 t2 c2 CT dumb v l e L C. destruct (K _ (derive_conceal tag idty c1 t2 c2 CT) dumb v l e eq_refl L C) as [e2 [e3 [E2 [E3 [-> ->]]]]].
    cbn [derive_conceal ce_encode] in E2, E3. apply bind_inv in E2 as [b2 [_ E2]]. apply bind_inv in E3 as [b3 [_ E3]].
    assert (X : forall o e', commit_to_concealed md t2 CT o (engine_new tag) = Ret e' -> exists c, run md [FConcealed t2 CT c] (engine_new tag) = Ret e').
    { intros o e' E. pose proof E as Q. unfold commit_to_concealed in Q. apply bind_inv in Q as [f [_ Q]]. apply bind_inv in Q as [e4 [_ Q]].
      apply bind_inv in Q as [c [-> _]]. exists c. apply R1. exact E. }
    apply X in E2 as [x2 E2]. apply X in E3 as [x3 E3].
    apply (uniform_layout md tag _ _ _ _ E2 E3). repeat constructor. intros s Y. exact Y.
  - intros A t leaves dumb v l e L C. destruct (K _ (derive_merklize tag idty t leaves) dumb v l e eq_refl L C) as [e2 [e3 [E2 [E3 [-> ->]]]]].
    apply (R1 (FMerkle t (leaves v))) in E2. apply (R1 (FMerkle t (leaves dumb))) in E3.
    apply (uniform_layout md tag _ _ _ _ E2 E3). repeat constructor. intros s X. exact X.
Qed.
Lemma c79_option_refuted : forall (H : Hasher) md tag A (T : typed A) v f
  (named : has_fqn (ty T) f) (plain : not_reserved_type (ty T)) (zero : enc (ty_codec T) v = [x00]),
  exists e1 e2, run md [FOption T None] (engine_new tag) = Ret e1 /\ run md [FSerialized T v] (engine_new tag) = Ret e2 /\
    into_layout e1 = into_layout e2 /\ digest_finish (engine_finish e1) = digest_finish (engine_finish e2).
Proof.
  intros H md tag A T v f N P Z.
  assert (X1 : exists e1, run md [FOption T None] (engine_new tag) = Ret e1).
  { apply (c36_sequence H). split; [cbn; lia|]. split; apply Forall_cons; try apply Forall_nil; [exists (StSerialized f), f; auto|exact I]. }
  assert (X2 : exists e2, run md [FSerialized T v] (engine_new tag) = Ret e2).
  { apply (c36_sequence H). split; [cbn; lia|]. split; apply Forall_cons; try apply Forall_nil; [exists (StSerialized f), f; auto|intros _; exact P]. }
  destruct X1 as [e1 E1], X2 as [e2 E2]. exists e1, e2. split; [exact E1|split; [exact E2|split]].
  - apply (uniform_layout md tag _ _ _ _ E1 E2). repeat constructor. intros s Y. exact Y.
  - apply (c34_split_independent H md md tag _ _ e1 e2 [[x00]] [[x00]] E1 E2); [| |reflexivity].
    + repeat constructor.
    + constructor; [symmetry; exact Z|constructor].
Qed.
Lemma c79_varying_refuted : exists (fields_of : bool -> list field), forall (H : Hasher) md tag idty f, has_fqn idty f ->
  let I := CommitEncode tag idty (fun md v e => run md (fields_of v) e) in
  exists l e, commitment_layout md I false = Ret l /\ commit md I true = Ret e /\ into_layout e <> cl_fields l.
Proof.
  exists (fun v : bool => if v then [FHash (SType "T"%string (Some "A"%string)) (b32_fill x00)] else []). 
  intros H md tag idty f ->. cbv zeta. eexists. eexists.
  split; [destruct md; reflexivity|]. split; [destruct md; reflexivity|]. discriminate.
Qed.
