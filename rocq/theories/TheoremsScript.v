(** C112: clients following the script of an adversary. *)
From Verif Require Import Base BaseFacts OrdMap OrdMapFacts Strict Merkle Sha256 MpcAtoms MpcTree MpcBlock.
From Verif Require Import SpecHash SpecTree SpecMerkle SpecFull SpecValid SpecFind SpecBlock SpecCommit SpecDerived SpecLocal SpecCount SpecGame SpecTarget SpecCodec SpecSession SpecScript.
From Verif Require Import HashFacts TreeFacts ConcealProofs BlockInv PathProofs MergeProofs MpcTreeProofs MerkleProofs DerivedProofs LocalProofs UniqueProofs CountProofs StrictProofs CodecProofs SessionProofs.
From Verif Require Import GameProofs TargetProofs TheoremsMpc TheoremsBlock TheoremsMore TheoremsExt TheoremsQuery TheoremsCount TheoremsFind TheoremsGame TheoremsTarget TheoremsSession.
Local Open Scope nat_scope.

Section WithHash.
Context {H : Hasher}.

(** ** Extraction against a tree made beforehand *)
Lemma wf_view_second b t pt : good_tree t -> block_tree b pt ->
  pcommit (mb_depth b) (mb_cofactor b) pt = pcommit (mt_depth t) (mt_cofactor t) (tree_full t) ->
  view_block t b pt \/ second_in (tree_pre t) (pcommit_pre (mb_depth b) (mb_cofactor b) pt).
Proof.
  intros G B E. pose proof B as [HD [Hc [Hx Hw]]].
  assert (B16 : (500 < 2 ^ 16)%N) by reflexivity. pose proof (gt_cofactor _ G) as Gc.
  assert (Gc' : (mt_cofactor t < 2 ^ 16)%N) by lia.
  destruct (pcommit_second _ _ _ _ _ _ HD (gt_depth _ G) Hc Gc' E) as [[ED [EC C]]|C].
  2: { right. apply second_swap. eapply second_mono; [apply incl_refl|apply tree_pre_commit|exact C]. }
  rewrite ED in *. unfold tree_full in C.
  pose proof (compat_full_leaves _ (mt_depth t) 0 0 pt (slot t) (slot_is_slot t) (pwf_loose_deep _ _ _ (pwf_loose_of _ _ _ Hw)) C) as F.
  cbn [Nat.add] in F.
  assert (G1 : forall l, incl l (pleaves_at (mt_depth t) 0 0 pt) ->
     (forall q p m, In (q, (p, m)) l -> slot t q = PLeaf p m)
     \/ second_in (tree_pre t) (pcommit_pre (mt_depth t) (mb_cofactor b) pt)).
  { induction l as [|[q [p m]] l IH]; intros I; [left; intros q p m []|].
    destruct IH as [IH|IH]; [intros x Hx'; apply I; right; exact Hx'| |right; exact IH].
    destruct (F q p m (I _ (or_introl eq_refl))) as [R M]. unfold slot in M.
    destruct (om_get N.ltb q (mt_map t)) as [[p' m']|] eqn:Eg.
    - destruct M as [-> ->]. left. intros q' p'' m'' [Q|HI]; [|exact (IH q' p'' m'' HI)].
      injection Q as <- <- <-. unfold slot. rewrite Eg. reflexivity.
    - right. exists (s_entropy (mt_entropy t) q), (s_leaf p m). repeat split.
      + unfold tree_pre, entropy_pre. apply in_or_app. right. apply in_flat_map.
        exists q. rewrite Eg. split; [apply N_from_In; rewrite pow_of_nat; lia|left; reflexivity].
      + unfold pcommit_pre. apply in_or_app. right. apply ppre_leaf.
        rewrite <- (pleaves_at_leaves (mt_depth t) 0 0). apply in_map_iff. exists (q, (p, m)).
        split; [reflexivity|]. apply I. left. reflexivity.
      + intros X. symmetry in X. exact (s_leaf_entropy _ _ _ _ X).
      + exact M. }
  destruct (G1 _ (incl_refl _)) as [A|A]; [left|right; exact A].
  split; [exact B|]. split; [|split; [exact ED|split; [exact EC|apply method_eq]]].
  unfold width_of. unfold tree_full. exact (compat_view _ (mt_depth t) 0 0 pt (slot t) (slot_is_slot t) Hw C A).
Qed.

Lemma feed_second md t b o pt po b' r :
  good_tree t -> view_block t b pt -> block_tree o po -> merge_reveal md b o = Ret (b', r) ->
  (exists pt', view_block t b' pt') \/ second_in (tree_pre t) (pcommit_pre (mb_depth o) (mb_cofactor o) po).
Proof.
  intros G V Bo M. pose proof (view_block_commit md t b pt G V) as C1. pose proof (wf_commit md o po Bo) as C2.
  destruct (b32_eq_dec (pcommit (mt_depth t) (mt_cofactor t) (tree_full t)) (pcommit (mb_depth o) (mb_cofactor o) po)) as [Q|Q].
  - destruct (wf_view_second o t po G Bo (eq_sym Q)) as [Vo|K]; [|right; exact K].
    left. destruct (view_merge md t b o pt po G V Vo) as [b2 [E [V2 _]]]. rewrite M in E. injection E as -> _. eauto.
  - left. rewrite (c14_unrelated H md b o _ _ C1 C2 Q) in M. injection M as <- _. eauto.
Qed.

Lemma session_second md t c L b :
  good_tree t -> c = pcommit (mt_depth t) (mt_cofactor t) (tree_full t) -> session md c L b ->
  (exists pt, view_block t b pt) \/ second_in (tree_pre t) L.
Proof.
  intros G ->.
  assert (Mono : forall L1 L2, incl L1 L2 -> second_in (tree_pre t) L1 -> second_in (tree_pre t) L2).
  { intros L1 L2 I. apply second_mono; [apply incl_refl|exact I]. }
  induction 1 as [bs b pt D B E|bs pf pid msg b D C E|L b ids b' r S IH E|L1 L2 b1 b2 b' r S1 IH1 S2 IH2 E
    |L b bs o po b' r S IH D B E|L b bs pf pid msg b' r S IH D E|L b p m pf b' S IH I E1 E2].
  - rewrite (wf_commit md b pt B) in E. injection E as E.
    destruct (wf_view_second b t pt G B E) as [V|K]; [left; eauto|right; exact K].
  - apply decoded_proof in D. destruct (convolve_inv _ _ _ _ _ D C) as [_ [_ [_ Q]]].
    destruct (with_tree pf pid msg b D E) as [B [E1 E2]].
    destruct (wf_view_second b t _ G B) as [V|K]; [rewrite E1, E2; symmetry; exact Q|left; eauto|right].
    rewrite E1, E2 in K. exact K.
  - destruct IH as [[pt V]|K]; [left|right; exact K].
    destruct (view_conceal_gen md t b pt ids G V) as [b1 [r1 [pt' [E' [Vb _]]]]].
    rewrite E in E'. injection E' as -> ->. eauto.
  - destruct IH1 as [[t1 V1]|K]; [|right; revert K; apply Mono, incl_appl, incl_refl].
    destruct IH2 as [[t2 V2]|K]; [|right; revert K; apply Mono, incl_appr, incl_refl].
    left. destruct (view_merge md t b1 b2 t1 t2 G V1 V2) as [b3 [E' [Vb _]]]. rewrite E in E'. injection E' as -> ->. eauto.
  - destruct IH as [[pt V]|K]; [|right; revert K; apply Mono, incl_appl, incl_refl].
    destruct (feed_second md t b o pt po b' r G V B E) as [X|K]; [left; exact X|].
    right; revert K; apply Mono, incl_appr, incl_refl.
  - destruct IH as [[pt V]|K]; [|right; revert K; apply Mono, incl_appl, incl_refl].
    apply decoded_proof in D. unfold merge_reveal_path in E.
    destruct (block_with pf pid msg) as [[o|e]|] eqn:W; cbn [bind] in E; [|injection E as <- _; left; eauto|discriminate].
    destruct (with_tree pf pid msg o D W) as [B [E1 E2]].
    destruct (feed_second md t b o pt _ b' r G V B E) as [X|K]; [left; exact X|]. rewrite E1, E2 in K.
    right; revert K; apply Mono, incl_appr, incl_refl.
  - destruct IH as [[pt V]|K]; [left|right; exact K]. pose proof V as [[_ [_ [Hx _]]] _]. rewrite Hx, known_leaves_flatten in I.
    destruct (view_proof md t b pt p m G V I) as [pf' [b1 [F1 [F2 [Vb _]]]]].
    rewrite E1 in F1. injection F1 as <-. rewrite E2 in F2. injection F2 as <-. eauto.
Qed.

(** Views of the tree do not mislead. *)
Lemma view_not_misled md src rng t b pt : valid_source src -> try_commit src rng = Ret (Ok t) ->
  view_block t b pt -> ~ misled md src t (pcommit (mt_depth t) (mt_cofactor t) (tree_full t)) b.
Proof.
  intros V E Vb. pose proof (try_commit_good _ _ _ V E) as G. pose proof (view_block_tree t G) as Vt.
  assert (Src : forall p m, In (p, m) (known_leaves (mb_cross_section b)) -> In (p, m) (known_leaves (mb_cross_section (block_of_tree t)))).
  { intros p m I. pose proof (view_src src rng t b pt p m V E Vb I) as Is.
    destruct (c04_placement _ _ _ V E) as [_ [_ [Em _]]]. rewrite <- Em in Is. pose proof Vt as [[_ [_ [Xt _]]] _].
    rewrite Xt, known_leaves_flatten. apply tree_full_pleaves; assumption. }
  intros [N|p m I N|p m I N|ids k N|ids b' n Q N|o D N].
  - apply N. exact (view_block_commit md t b pt G Vb).
  - apply N. exact (view_src src rng t b pt p m V E Vb I).
  - apply N. rewrite (proof_contents md t b p m G (ex_intro _ pt Vb) I).
    rewrite (proof_contents md t _ p m G (ex_intro _ _ Vt) (Src p m I)). reflexivity.
  - destruct (view_conceal_gen md t b pt ids G Vb) as [b1 [r [pt' [Q _]]]]. congruence.
  - pose proof Vb as [B [PV [ED [EC EM]]]]. destruct (view_conceal_gen md t b pt ids G Vb) as [b1 [r [pt1 [Q1 [_ R1]]]]].
    rewrite Q in Q1. injection Q1 as <- <-. destruct R1 as [K1 ->].
    destruct (view_conceal_gen md t _ _ ids G Vt) as [b2 [r2 [pt2 [Q2 [_ R2]]]]]. destruct r2 as [n2|q].
    + destruct R2 as [K2 _]. apply (N n2). rewrite Q2. f_equal. f_equal.
      pose proof B as [HD [Hc [Hx Hw]]]. pose proof Vt as [[HD' [Hc' [Hx' Hw']]] _].
      pose proof (conceal_except_ok md b pt ids HD Hx (pwf_loose_of _ _ _ Hw) K1) as X1. cbv zeta in X1.
      pose proof (conceal_except_ok md _ (tree_full t) ids HD' Hx' (pwf_loose_of _ _ _ Hw') K2) as X2. cbv zeta in X2.
      rewrite Q in X1. rewrite Q2 in X2. injection X1 as -> _. injection X2 as -> _.
      cbn [block_of_tree mb_method mb_depth mb_cofactor]. rewrite ED, EC. f_equal; [apply method_eq|]. f_equal.
      symmetry. apply (view_restrict (mem ids) _ 0 pt (tree_full t) PV). apply filter_count.
      * apply full_nodup. exact G.
      * exact (view_nodup t b pt G Vb).
      * intros e I. exact (pview_leaves _ _ _ _ _ PV I).
      * intros e _ M. apply mem_In in M. apply K1. exact M.
    + destruct R2 as [R2 [R3 _]]. apply R3. apply K1 in R2. apply in_map_iff in R2 as [e [Q' I]]. apply in_map_iff. exists e. split; [exact Q'|].
      eapply pview_leaves; eassumption.
  - destruct (derived_view md t o G D) as [po Vo]. destruct (view_merge md t b o pt po G Vb Vo) as [b' [M _]]. exact (N _ _ M).
Qed.
End WithHash.

Lemma c112_extract : forall (H : Hasher) md md' src rng t c L b
  (valid : valid_source src) (made : try_commit src rng = Ret (Ok t)) (tree_id : tree_commit_id md' t = Ret c)
  (held : session md c L b),
  ~ misled md src t c b \/ second_in (tree_pre t) L.
Proof.
  intros H md md' src rng t c L b V E It S. pose proof (try_commit_good _ _ _ V E) as G. apply tree_id_is in It; [|exact G].
  destruct (session_second md t c L b G It S) as [[pt Vb]|K]; [left|right; exact K]. rewrite It. exact (view_not_misled md src rng t b pt V E Vb).
Qed.

(** ** The client's hashing as a program *)
Definition p_received (bs : list byte) : prog unit :=
  match dec c_merkle_block bs with
  | Some (b, []) => andthen (p_block (length (mb_cross_section b)) b) (fun _ => Done tt)
  | _ => Done tt
  end.
Definition p_opened (bs : list byte) (pid msg : bytes32) : prog unit :=
  match dec c_merkle_proof bs with
  | Some (pf, []) => andthen (p_proof pf pid msg) (fun _ => Done tt)
  | _ => Done tt
  end.
Fixpoint p_script (s : script) : prog unit :=
  match s with
  | ScBlock bs => p_received bs
  | ScProof bs pid msg => p_opened bs pid msg
  | ScConceal s _ | ScExtract s _ => p_script s
  | ScMerge s1 s2 => andthen (p_script s1) (fun _ => p_script s2)
  | ScFeed s bs => andthen (p_script s) (fun _ => p_received bs)
  | ScPath s bs pid msg => andthen (p_script s) (fun _ => p_opened bs pid msg)
  end.
Lemma p_received_modest bs n : 162 <= n -> modest n (length bs) (p_received bs).
Proof.
  intros N. unfold p_received. destruct (dec c_merkle_block bs) as [[b [|x r]]|] eqn:D; [|exact I|exact I].
  apply (law_can _ _ c_merkle_block_lawful) in D as [-> _]. rewrite app_nil_r.
  rewrite <- (Nat.add_0_r (length _)). apply modest_andthen; [|intros _; exact I].
  eapply modest_mono; [|apply p_block_modest, N]. rewrite c64_block. destruct (mb_entropy b); lia.
Qed.
Lemma p_opened_modest bs pid msg n : 162 <= n -> modest n (length bs) (p_opened bs pid msg).
Proof.
  intros N. unfold p_opened. destruct (dec c_merkle_proof bs) as [[pf [|x r]]|] eqn:D; [|exact I|exact I].
  apply (law_can _ _ c_merkle_proof_lawful) in D as [-> _]. rewrite app_nil_r.
  rewrite <- (Nat.add_0_r (length _)). apply modest_andthen; [|intros _; exact I].
  eapply modest_mono; [|apply p_proof_modest, N]. rewrite c64_proof. lia.
Qed.
Lemma p_script_modest s n : 162 <= n -> modest n (traffic s) (p_script s).
Proof.
  intros N. induction s as [bs|bs pid msg|s IH ids|s1 IH1 s2 IH2|s IH bs|s IH bs pid msg|s IH pid]; cbn [p_script traffic].
  - apply p_received_modest, N.
  - apply p_opened_modest, N.
  - exact IH.
  - apply modest_andthen; [exact IH1|intros _; exact IH2].
  - apply modest_andthen; [exact IH|intros _; apply p_received_modest, N].
  - apply modest_andthen; [exact IH|intros _; apply p_opened_modest, N].
  - exact IH.
Qed.
Lemma p_received_asked H bs b pt : dec c_merkle_block bs = Some (b, []) -> block_tree b pt ->
  incl (@pcommit_pre H (mb_depth b) (mb_cofactor b) pt) (asked H (p_received bs)).
Proof.
  intros D [_ [_ [Hx Hw]]]. unfold p_received. rewrite D, asked_andthen. apply incl_appl.
  apply p_block_asked; [lia|exact Hx|apply pwf_loose_of, Hw].
Qed.
Lemma p_opened_asked H bs pf pid msg : dec c_merkle_proof bs = Some (pf, []) ->
  incl (@proof_pre H pf pid msg) (asked H (p_opened bs pid msg)).
Proof. intros D. unfold p_opened. rewrite D, asked_andthen. apply incl_appl, p_proof_asked. Qed.

Lemma script_session H md c s b : @follows H md c s b -> exists L, @session H md c L b /\ incl L (asked H (p_script s)).
Proof.
  induction 1 as [bs b pt D B E|bs pf pid msg b D C E|s b ids b' r S [L [IH I]] E|s1 s2 b1 b2 b' r S1 [L1 [IH1 I1]] S2 [L2 [IH2 I2]] E
    |s b bs o po b' r S [L [IH I]] D B E|s b bs pf pid msg b' r S [L [IH I]] D E|s b p m pf b' S [L [IH I]] K E1 E2]; cbn [p_script].
  - eexists. split; [eapply ss_block; eassumption|apply p_received_asked; assumption].
  - eexists. split; [eapply ss_proof; eassumption|apply p_opened_asked; assumption].
  - exists L. split; [eapply ss_conceal; eassumption|exact I].
  - eexists. split; [eapply ss_merge; [exact IH1|exact IH2|exact E]|]. rewrite asked_andthen. apply incl_app; [apply incl_appl, I1|apply incl_appr, I2].
  - eexists. split; [eapply ss_feed; [exact IH|exact D|exact B|exact E]|]. rewrite asked_andthen.
    apply incl_app; [apply incl_appl, I|apply incl_appr, p_received_asked; assumption].
  - eexists. split; [eapply ss_path; [exact IH|exact D|exact E]|]. rewrite asked_andthen.
    apply incl_app; [apply incl_appl, I|apply incl_appr, p_opened_asked; assumption].
  - exists L. split; [eapply ss_extract; eassumption|exact I].
Qed.

Definition p_limited (k : nat) (s : script) : prog unit := if traffic s <=? k then p_script s else Done tt.
Lemma p_limited_modest k s n : 162 <= n -> modest n k (p_limited k s).
Proof.
  intros N. unfold p_limited. destruct (Nat.leb_spec (traffic s) k) as [L|]; [|exact I].
  eapply modest_mono; [exact L|apply p_script_modest, N].
Qed.
Lemma p_limited_asked H k s : traffic s <= k -> asked H (p_limited k s) = asked H (p_script s).
Proof. intros L. unfold p_limited. rewrite (proj2 (Nat.leb_le _ _) L). reflexivity. Qed.

(** ** Games *)
Lemma c112_script : forall n U q k D made (adversary : prog script)
  (strings : universe n U) (short : 162 <= n) (few : modest n q adversary) (before : made_before D made),
  let K := N.of_nat (length made * (2 * 2 ^ D + 2)) in
  rare U (fun H => let s := exec H adversary in
            traffic s <= k /\ exists src t c md b, committed H made src t c /\ @follows H md c s b /\ @misled H md src t c b)
       (K * (K - 1) + 2 * K * N.of_nat (q + k)) (2 ^ 257).
Proof.
  intros n U q k D made adv UU N M Bf. cbv zeta.
  apply (rare_target n U D made adv (p_limited k) q k); try assumption.
  - intros s. apply p_limited_modest, N.
  - intros H. set (s := exec H adv). intros (Lk & src & t & c & md & b & (rng & md' & I & E & Id) & F & X).
    destruct (made_tree D made src rng t Bf I E) as [V L]. destruct (script_session H md c s b F) as [Ls [S Is]].
    destruct (c112_extract H md md' src rng t c Ls b V E Id S) as [Y|Y]; [contradiction|].
    rewrite (p_limited_asked H k s Lk).
    eapply second_mono; [apply (p_made_asked H D made src rng t I E L)|exact Is|exact Y].
Qed.

Lemma c112_chosen : forall n U q k D (adversary : prog (multi_source * option N * script))
  (strings : universe n U) (short : 162 <= n) (few : modest n q adversary),
  let Q := q + (2 * 2 ^ D + 2 + k) in
  rare U (fun H => let '(src, rng, s) := exec H adversary in
            valid_source src /\ traffic s <= k /\ exists t md md' c b, try_commit src rng = Ret (Ok t) /\ mt_depth t <= D /\
              @tree_commit_id H md' t = Ret c /\ @follows H md c s b /\ @misled H md src t c b)
       (N.of_nat Q * N.of_nat (Q - 1)) (2 ^ 257).
Proof.
  intros n U q k D adv UU N M. cbv zeta.
  apply (rare_game n U adv (fun '(src, rng, s) => andthen (p_commit D src rng) (fun _ => p_limited k s)) q (2 * 2 ^ D + 2 + k)); try assumption.
  - intros [[src rng] s]. apply modest_andthen; [apply p_commit_modest, N|intros _; apply p_limited_modest, N].
  - intros H. destruct (exec H adv) as [[src rng] s]. intros (V & Lk & t & md & md' & c & b & E & L & Id & F & X).
    destruct (script_session H md c s b F) as [Ls [S Is]].
    destruct (c112_extract H md md' src rng t c Ls b V E Id S) as [Y|(x & y & Ix & Iy & Nx & Ex)]; [contradiction|].
    exists x, y. split; [|split; [|split; [exact Nx|exact Ex]]]; apply both_asked, in_or_app.
    + left. apply (p_commit_asked H D src rng t E L), Ix.
    + right. rewrite (p_limited_asked H k s Lk). apply Is, Iy.
Qed.

(** ** Two clients and a commitment of unknown origin *)
Section Odds.
Context {H : Hasher}.

Lemma pjoin_ppre W a : forall d b, pcompat W d a b -> incl (ppre W d (pjoin a b)) (ppre W d a ++ ppre W d b).
Proof.
  induction a as [h|p m|l IHl r IHr]; intros d b C.
  - cbn [pjoin]. apply incl_appr, incl_refl.
  - destruct b; cbn [pjoin]; apply incl_appl, incl_refl.
  - destruct b as [h'|p' m'|l' r']; cbn [pjoin]; [apply incl_appl, incl_refl|apply incl_appl, incl_refl|].
    cbn [pcompat] in C. destruct C as [C1 C2]. intros x I. cbn [ppre] in I.
    rewrite (pjoin_phash _ _ _ _ C1), (pjoin_phash _ _ _ _ C2) in I.
    destruct I as [I|I]; [left; exact I|]. apply in_app_or in I as [I|I].
    + apply (IHl _ _ C1) in I. cbn [ppre app]. right. rewrite !in_app_iff in *. cbn [In]. rewrite !in_app_iff. tauto.
    + apply (IHr _ _ C2) in I. cbn [ppre app]. right. rewrite !in_app_iff in *. cbn [In]. rewrite !in_app_iff. tauto.
Qed.
Lemma view_pcommit_pre D c t s : pview (2 ^ N.of_nat D) 0 t s -> incl (pcommit_pre D c t) (pcommit_pre D c s).
Proof.
  intros V x I. unfold pcommit_pre in *. rewrite (pview_phash _ _ _ _ V) in I. rewrite in_app_iff in *.
  destruct I as [I|I]; [left; exact I|right]. exact (pview_ppre _ _ _ _ V x I).
Qed.
Lemma view_pcommit D c t s : pview (2 ^ N.of_nat D) 0 t s -> pcommit D c t = pcommit D c s.
Proof. intros V. unfold pcommit. rewrite (pview_phash _ _ _ _ V). reflexivity. Qed.

(** Held for [c], with all hashed strings in [L]. *)
Definition held_in (c : bytes32) (L : list (list byte)) (b : merkle_block) : Prop :=
  exists pt, block_tree b pt /\ pcommit (mb_depth b) (mb_cofactor b) pt = c /\ incl (pcommit_pre (mb_depth b) (mb_cofactor b) pt) L.

Lemma held_conceal md c L b ids : held_in c L b -> exists b' r, conceal_except md b ids = Ret (b', r) /\ held_in c L b'.
Proof.
  intros [pt [[HD [Hc [Hx Hw]]] [E I]]].
  assert (Dec : (forall p, In p ids -> In p (map fst (pleaves pt))) \/
                exists p, In p ids /\ ~ In p (map fst (pleaves pt))).
  { clear. induction ids as [|p ids [IH|[q [I1 I2]]]].
    - left. intros p [].
    - destruct (mem (map fst (pleaves pt)) p) eqn:E.
      + left. intros x [<-|HI]; [apply mem_In; exact E|apply IH; exact HI].
      + right. exists p. split; [left; reflexivity|]. intros HI. apply mem_In in HI. congruence.
    - right. exists q. split; [right; exact I1|exact I2]. }
  destruct Dec as [A|[p [I1 I2]]].
  - pose proof (conceal_except_ok md b pt ids HD Hx (pwf_loose_of _ _ _ Hw) A) as Q. cbv zeta in Q.
    eexists _, _. split; [exact Q|]. exists (prestrict (mem ids) (width_of (mb_depth b)) 0 pt). cbn [mb_depth mb_cofactor].
    split; [|split].
    + split; [exact HD|split; [exact Hc|split; [reflexivity|]]]. cbn. apply prestrict_pwf. exact Hw.
    + rewrite <- E. apply view_pcommit, prestrict_view.
    + eapply incl_tran; [|exact I]. apply view_pcommit_pre, prestrict_view.
  - destruct (conceal_except_err md b pt ids p Hx (pwf_loose_of _ _ _ Hw) I1 I2) as [q [Q _]].
    eexists _, _. split; [exact Q|]. exists (pkeep (mem ids) pt). cbn [mb_depth mb_cofactor]. split; [|split].
    + split; [exact HD|split; [exact Hc|split; [reflexivity|]]]. cbn. apply pkeep_pwf. exact Hw.
    + rewrite <- E. apply view_pcommit, pkeep_view.
    + eapply incl_tran; [|exact I]. apply view_pcommit_pre, pkeep_view.
Qed.
Lemma held_merge md c L1 L2 b1 b2 : held_in c L1 b1 -> held_in c L2 b2 ->
  (exists b' n, merge_reveal md b1 b2 = Ret (b', Ok n) /\ held_in c (L1 ++ L2) b' /\
     forall p m, In (p, m) (known_leaves (mb_cross_section b')) <->
       In (p, m) (known_leaves (mb_cross_section b1)) \/ In (p, m) (known_leaves (mb_cross_section b2))) \/
  collision_in (L1 ++ L2).
Proof.
  intros [t1 [B1 [E1 I1]]] [t2 [B2 [E2 I2]]].
  destruct (merge_reveal_equal b1 b2 t1 t2 B1 B2) as [[ED [EC C]]|K]; [congruence| |].
  2: { right. eapply coll_incl; [|exact K]. apply incl_app; [apply incl_appl, I1|apply incl_appr, I2]. }
  left. destruct (merge_reveal_compat md b1 b2 t1 t2 B1 B2 ED EC C) as [M BT]. cbv zeta in M.
  eexists _, _. split; [exact M|]. split.
  - exists (pjoin t1 t2). split; [exact BT|]. cbn [mb_depth mb_cofactor]. unfold width_of in C. split.
    + rewrite <- E1. unfold pcommit. rewrite (pjoin_phash _ _ _ _ C). reflexivity.
    + unfold pcommit_pre. rewrite (pjoin_phash _ _ _ _ C). apply incl_app.
      * apply incl_appl. eapply incl_tran; [|exact I1]. apply incl_appl, incl_refl.
      * intros x I. apply (pjoin_ppre _ _ _ _ C) in I. apply in_app_or in I as [I|I]; apply in_or_app; [left; apply I1|right; apply I2].
        -- unfold pcommit_pre. apply in_or_app. right. exact I.
        -- unfold pcommit_pre. apply in_or_app. right. rewrite <- ED. exact I.
  - intros p m. cbn [mb_cross_section]. pose proof B1 as [_ [_ [X1 _]]]. pose proof B2 as [_ [_ [X2 _]]].
    rewrite X1, X2, !known_leaves_flatten. rewrite <- !(pleaves_at_leaves (mb_depth b1) 0 0). rewrite !in_map_iff.
    pose proof (pjoin_leaves_at (mb_depth b1) _ 0 0 t1 t2 C) as J. split.
    + intros [e [Q I]]. apply J in I as [I|I]; [left|right]; exists e; auto.
    + intros [[e [Q I]]|[e [Q I]]]; exists e; (split; [exact Q|apply J; auto]).
Qed.
Lemma held_mono c L L' b : incl L L' -> held_in c L b -> held_in c L' b.
Proof. intros S [pt [B [E I]]]. exists pt. split; [exact B|split; [exact E|]]. eapply incl_tran; eassumption. Qed.

Lemma held_feed md c L L' b o po b' r : held_in c L b -> block_tree o po -> incl (pcommit_pre (mb_depth o) (mb_cofactor o) po) L' ->
  merge_reveal md b o = Ret (b', r) -> held_in c (L ++ L') b' \/ collision_in (L ++ L').
Proof.
  intros Hb Bo Io M. destruct (b32_eq_dec c (pcommit (mb_depth o) (mb_cofactor o) po)) as [Q|Q].
  - destruct (held_merge md c L L' b o Hb) as [(b2 & n & E & X & _)|K]; [exists po; auto| |right; exact K].
    left. rewrite M in E. injection E as -> _. exact X.
  - left. pose proof Hb as [pt [B [E I]]]. pose proof (wf_commit md b pt B) as C1. pose proof (wf_commit md o po Bo) as C2. rewrite E in C1.
    rewrite (c14_unrelated H md b o _ _ C1 C2 Q) in M. injection M as <- _. eapply held_mono; [|exact Hb]. apply incl_appl, incl_refl.
Qed.
End Odds.

Lemma held_script H md c s b : no_extract s -> @follows H md c s b ->
  @held_in H c (asked H (p_script s)) b \/ @collision_in H (asked H (p_script s)).
Proof.
  intros NE F. revert NE. induction F as [bs b pt D B E|bs pf pid msg b D C E|s b ids b' r S IH E|s1 s2 b1 b2 b' r S1 IH1 S2 IH2 E
    |s b bs o po b' r S IH D B E|s b bs pf pid msg b' r S IH D E|s b p m pf b' S IH K E1 E2]; cbn [p_script no_extract]; intros NE.
  - left. exists pt. split; [exact B|split; [|apply p_received_asked; assumption]].
    rewrite (@wf_commit H md b pt B) in E. injection E as ->. reflexivity.
  - left. pose proof (p_opened_asked H bs pf pid msg D) as I. apply decoded_proof in D.
    destruct (@convolve_inv H _ _ _ _ _ D C) as [_ [_ [_ Q]]]. destruct (@with_tree pf pid msg b D E) as [B [E1 E2]].
    exists (path_tree (mp_path pf) (mp_pos pf) pid msg). rewrite E1, E2. split; [exact B|split; [symmetry; exact Q|exact I]].
  - destruct (IH NE) as [X|X]; [left|right; exact X]. destruct (@held_conceal H md c _ b ids X) as (b1 & r1 & Q & Y).
    rewrite E in Q. injection Q as -> ->. exact Y.
  - rewrite asked_andthen. destruct NE as [N1 N2].
    destruct (IH1 N1) as [X1|X1]; [|right; eapply coll_incl; [|exact X1]; apply incl_appl, incl_refl].
    destruct (IH2 N2) as [X2|X2]; [|right; eapply coll_incl; [|exact X2]; apply incl_appr, incl_refl].
    destruct (@held_merge H md c _ _ b1 b2 X1 X2) as [(b3 & n & M & Y & _)|K]; [left|right; exact K].
    rewrite E in M. injection M as -> ->. exact Y.
  - rewrite asked_andthen. destruct (IH NE) as [X|X]; [|right; eapply coll_incl; [|exact X]; apply incl_appl, incl_refl].
    exact (@held_feed H md c _ _ b o po b' r X B (p_received_asked H bs o po D B) E).
  - rewrite asked_andthen. destruct (IH NE) as [X|X]; [|right; eapply coll_incl; [|exact X]; apply incl_appl, incl_refl].
    pose proof (p_opened_asked H bs pf pid msg D) as I. apply decoded_proof in D. unfold merge_reveal_path in E.
    destruct (block_with pf pid msg) as [[o|e]|] eqn:W; cbn [bind] in E; [| |discriminate].
    + destruct (@with_tree pf pid msg o D W) as [B [E1 E2]]. refine (@held_feed H md c _ _ b o _ b' r X B _ E). rewrite E1, E2. exact I.
    + injection E as <- _. left. eapply held_mono; [|exact X]. apply incl_appl, incl_refl.
  - destruct NE.
Qed.

Lemma c112_two : forall n U q k (adversary : prog (script * script))
  (strings : universe n U) (short : 162 <= n) (few : modest n q adversary),
  let Q := q + (k + k) in
  rare U (fun H => let '(s1, s2) := exec H adversary in
            traffic s1 <= k /\ traffic s2 <= k /\ no_extract s1 /\ no_extract s2 /\
            exists md c b1 b2, @follows H md c s1 b1 /\ @follows H md c s2 b2 /\ @at_odds H md c b1 b2)
       (N.of_nat Q * N.of_nat (Q - 1)) (2 ^ 257).
Proof.
  intros n U q k adv UU N M. cbv zeta.
  apply (rare_game n U adv (fun '(s1, s2) => andthen (p_limited k s1) (fun _ => p_limited k s2)) q (k + k)); try assumption.
  - intros [s1 s2]. apply modest_andthen; [|intros _]; apply p_limited_modest, N.
  - intros H. destruct (exec H adv) as [s1 s2]. intros (L1 & L2 & N1 & N2 & md & c & b1 & b2 & F1 & F2 & X).
    rewrite asked_andthen, (p_limited_asked H k s1 L1), (p_limited_asked H k s2 L2).
    destruct (held_script H md c s1 b1 N1 F1) as [H1|K]; [|eapply coll_incl; [|exact K]; apply incl_appl, incl_refl].
    destruct (held_script H md c s2 b2 N2 F2) as [H2|K]; [|eapply coll_incl; [|exact K]; apply incl_appr, incl_refl].
    destruct (@held_merge H md c _ _ b1 b2 H1 H2) as [(b' & n' & Mg & _ & U')|K]; [exfalso|exact K].
    destruct X as [X|ids kk X|X|b'' n'' p m X Y].
    + destruct H1 as [pt [B [E _]]]. apply X. rewrite (@wf_commit H md b1 pt B). congruence.
    + destruct (@held_conceal H md c _ b1 ids H1) as (b3 & r & Q & _). congruence.
    + exact (X _ _ Mg).
    + rewrite Mg in X. injection X as <- <-. exact (Y (U' p m)).
Qed.

Lemma c112_numbers : forall n U q k made (adversary : prog script)
  (strings : universe n U) (short : 162 <= n) (few : modest n q adversary) (before : made_before 16 made)
  (work : (N.of_nat q <= 2 ^ 100)%N) (bytes : (N.of_nat k <= 2 ^ 50)%N) (many : (N.of_nat (length made) <= 2 ^ 20)%N),
  rare U (fun H => let s := exec H adversary in
            traffic s <= k /\ exists src t c md b, committed H made src t c /\ @follows H md c s b /\ @misled H md src t c b)
       1 (2 ^ 118).
Proof.
  intros n U q k made adv UU N M Bf W Wk Mn B NB HB.
  pose proof (c112_script n U q k 16 made adv UU N M Bf B NB HB) as X'. cbv zeta in X'.
  set (K := N.of_nat (length made * (2 * 2 ^ 16 + 2))) in *. set (Q := N.of_nat (q + k)) in *. set (T := (2 ^ (256 * N.of_nat (length U)))%N) in *.
  assert (KL : (K <= 2 ^ 20 * 131074)%N).
  { unfold K. rewrite Nat2N.inj_mul. replace (N.of_nat (2 * 2 ^ 16 + 2)) with (131074)%N.
    - apply N.mul_le_mono_r, Mn.
    - rewrite Nat2N.inj_add, Nat2N.inj_mul, pow_of_nat. reflexivity. }
  assert (QL : (Q <= 2 ^ 100 + 2 ^ 50)%N) by (unfold Q; lia).
  assert (TL : (K * (K - 1) + 2 * K * Q <= 2 ^ 139)%N).
  { eapply N.le_trans; [apply N.add_le_mono; [apply N.mul_le_mono; [exact KL|eapply N.le_trans; [apply N.le_sub_l|exact KL]]|
      apply N.mul_le_mono; [apply N.mul_le_mono_l, KL|exact QL]]|]. vm_compute. discriminate. }
  rewrite N.mul_1_l.
  assert (Y : (2 ^ 139 * (N.of_nat (length B) * 2 ^ 118) <= 2 ^ 139 * T)%N).
  { replace (2 ^ 139 * (N.of_nat (length B) * 2 ^ 118))%N with (N.of_nat (length B) * 2 ^ 257)%N.
    - eapply N.le_trans; [exact X'|]. apply N.mul_le_mono_r, TL.
    - replace (2 ^ 257)%N with (2 ^ 139 * 2 ^ 118)%N by (vm_compute; reflexivity). lia. }
  apply N.mul_le_mono_pos_l in Y; [exact Y|vm_compute; reflexivity].
Qed.

(** Extraction from a block which shows a protocol at another place than its own gives up the commitment. *)
Definition odd_block : merkle_block := MBlock Sha256t 1 0 [CommitmentLeaf (b32_fill x01) (b32_fill x02); ConcealedNode 1 (b32_fill x00)] None.
Definition odd_tree : ptree := PBr (PLeaf (b32_fill x01) (b32_fill x02)) (PConc (b32_fill x00)).
Lemma odd_block_tree : block_tree odd_block odd_tree.
Proof. split; [cbn; lia|split; [reflexivity|split; [reflexivity|cbn; lia]]]. Qed.
Definition odd_id : bytes32 := Eval vm_compute in match @block_commit_id sha256 Debug odd_block with Ret c => c | Panic _ => b32_fill x00 end.
Definition odd_part : merkle_block := MBlock Sha256t 1 0 [ConcealedNode 1 (b32_fill x00); CommitmentLeaf (b32_fill x01) (b32_fill x02)] None.
Lemma c112_extraction_refuted : exists md c s1 s2 b1 b2,
  @follows sha256 md c s1 b1 /\ @follows sha256 md c s2 b2 /\ no_extract s2 /\ @at_odds sha256 md c b1 b2.
Proof.
  assert (E : @block_commit_id sha256 Debug odd_block = Ret odd_id) by (vm_compute; reflexivity).
  assert (F : @follows sha256 Debug odd_id (ScBlock (enc c_merkle_block odd_block)) odd_block).
  { apply (@fo_block sha256 _ _ _ _ odd_tree); [vm_compute; reflexivity|exact odd_block_tree|exact E]. }
  exists Debug, odd_id, (ScExtract (ScBlock (enc c_merkle_block odd_block)) (b32_fill x01)), (ScBlock (enc c_merkle_block odd_block)), odd_part, odd_block.
  split; [|split; [exact F|split; [exact I|]]].
  - eapply (@fo_extract sha256); [exact F|left; reflexivity|vm_compute; reflexivity|vm_compute; reflexivity].
  - apply od_id. vm_compute. discriminate.
Qed.
