(** Blocks and proofs from untrusted parties against the tree their commitment was made for. *)
From Verif Require Import Base BaseFacts OrdMap OrdMapFacts SpecHash HashFacts SpecTree SpecFull SpecCommit SpecValid SpecCodec SpecSession
  MpcAtoms MpcTree MpcBlock Strict TreeFacts ConcealProofs PathProofs MergeProofs MpcTreeProofs DerivedProofs LocalProofs
  StrictProofs CodecProofs TheoremsMpc TheoremsBlock TheoremsMore TheoremsExt.
Local Open Scope nat_scope.

Section WithHash.
Context {H : Hasher}.

Lemma compat_view W k d o a f :
  (forall i, is_slot (f i)) -> pwf (d + k) d a -> pcompat W d a (full_tree k o f) ->
  (forall q p m, In (q, (p, m)) (pleaves_at (d + k) d o a) -> f q = PLeaf p m) ->
  pview W d a (full_tree k o f).
Proof.
  intros Hf. revert d o a; induction k as [|k IH]; intros d o a Wa C F.
  - cbn [full_tree] in *. destruct a as [h|p m|l r].
    + exact C.
    + rewrite (F o p m (or_introl eq_refl)). split; reflexivity.
    + cbn in Wa. destruct Wa as [Wa _]. apply pwf_depth in Wa. lia.
  - destruct a as [h|p m|l r].
    + exact C.
    + cbn in Wa. lia.
    + cbn [full_tree] in C |- *. cbn in C, Wa. destruct C as [C1 C2], Wa as [W1 W2].
      replace (d + S k) with (S d + k) in * by lia. cbn. split.
      * apply IH; [exact W1|exact C1|]. intros q p m I. apply F. cbn. apply in_or_app. left. exact I.
      * apply IH; [exact W2|exact C2|]. intros q p m I. apply F. cbn. apply in_or_app. right.
        replace (d + k - d) with k by lia. exact I.
Qed.

(** A well-formed block with the commitment of a tree is a view of that tree. *)
Theorem wf_view b t pt :
  good_tree t -> block_tree b pt ->
  pcommit (mb_depth b) (mb_cofactor b) pt = pcommit (mt_depth t) (mt_cofactor t) (tree_full t) ->
  view_block t b pt \/ collision_in (pcommit_pre (mb_depth b) (mb_cofactor b) pt ++ tree_pre t).
Proof.
  intros G B E. pose proof B as [HD [Hc [Hx Hw]]].
  destruct (block_vouches b t pt G HD Hc Hx (pwf_loose_of _ _ _ Hw) E) as [[ED [EC F]]|C]; [|right; exact C].
  assert (Gc : (mt_cofactor t < 2 ^ 16)%N).
  { assert (B16 : (500 < 2 ^ 16)%N) by reflexivity. pose proof (gt_cofactor _ G). lia. }
  destruct (pcommit_inj _ _ _ _ _ _ HD (gt_depth _ G) Hc Gc E) as [[_ [_ C]]|C].
  2: { right. eapply coll_incl; [|exact C]. intros x HI. unfold tree_pre. rewrite !in_app_iff in *. tauto. }
  left. split; [exact B|]. split; [|split; [exact ED|split; [exact EC|apply method_eq]]].
  unfold width_of. rewrite ED in *. unfold tree_full.
  apply (compat_view _ (mt_depth t) 0 0 pt (slot t) (slot_is_slot t) Hw C).
  intros q p m I. destruct (F q p m I) as [M ->]. unfold slot.
  assert (K : In (s_pos p (mt_cofactor t) (mt_depth t), (p, m)) (mt_map t)) by (apply (gt_map _ G); auto).
  apply (om_In_get N.ltb) in K; [|exact (gt_map_sorted _ G)]. rewrite K. reflexivity.
Qed.

Lemma pview_ppre W d t s : pview W d t s -> incl (ppre W d t) (ppre W d s).
Proof.
  revert d s; induction t as [h|p m|l IHl r IHr]; intros d s V x I.
  - destruct I.
  - destruct s as [|p' m'|]; [destruct V| |destruct V]. destruct V as [-> ->]. exact I.
  - destruct s as [|?|l' r']; [destruct V|destruct V|]. cbn in V. destruct V as [V1 V2]. cbn [ppre] in I |- *.
    rewrite (pview_phash _ _ _ _ V1), (pview_phash _ _ _ _ V2) in I. destruct I as [I|I]; [left; exact I|right].
    apply in_app_or in I as [I|I]; apply in_or_app; [left; apply (IHl _ _ V1 _ I)|right; apply (IHr _ _ V2 _ I)].
Qed.
Lemma view_pre t b pt : view_block t b pt -> incl (pcommit_pre (mb_depth b) (mb_cofactor b) pt) (tree_pre t).
Proof.
  intros [_ [V [-> [-> _]]]] x I. unfold tree_pre. apply in_or_app. left. unfold width_of in V. unfold pcommit_pre in *.
  rewrite (pview_phash _ _ _ _ V) in I. rewrite in_app_iff in *. destruct I as [I|I]; [left; exact I|right].
  exact (pview_ppre _ _ _ _ V x I).
Qed.

Lemma decoded_proof bs pf : dec c_merkle_proof bs = Some (pf, []) -> valid_proof pf.
Proof. intros E. exact (proj2 (law_can _ _ c_merkle_proof_lawful _ _ _ E)). Qed.

(** What the library's own checks make of an arbitrary well-formed block merged into a view. *)
Lemma feed_view md t b o pt po b' r :
  good_tree t -> view_block t b pt -> block_tree o po -> merge_reveal md b o = Ret (b', r) ->
  (exists pt', view_block t b' pt') \/ collision_in (pcommit_pre (mb_depth o) (mb_cofactor o) po ++ tree_pre t).
Proof.
  intros G V Bo M. pose proof (view_block_commit md t b pt G V) as C1. pose proof (wf_commit md o po Bo) as C2.
  destruct (b32_eq_dec (pcommit (mt_depth t) (mt_cofactor t) (tree_full t)) (pcommit (mb_depth o) (mb_cofactor o) po)) as [Q|Q].
  - destruct (wf_view o t po G Bo (eq_sym Q)) as [Vo|K]; [|right; exact K].
    left. destruct (view_merge md t b o pt po G V Vo) as [b2 [E [V2 _]]]. rewrite M in E. injection E as -> _. eauto.
  - left. rewrite (c14_unrelated H md b o _ _ C1 C2 Q) in M. injection M as <- _. eauto.
Qed.

Lemma block_with_long pf pid msg : 32 <= length (mp_path pf) -> block_with pf pid msg = Panic PAssert.
Proof.
  intros L. unfold block_with, mp_width_limit, mp_depth, u5_with.
  replace (length (mp_path pf) <=? u5_max) with false; [reflexivity|].
  symmetry. apply Nat.leb_gt. unfold u5_max. lia.
Qed.
Lemma with_tree pf pid msg b :
  valid_proof pf -> block_with pf pid msg = Ret (Ok b) ->
  block_tree b (path_tree (mp_path pf) (mp_pos pf) pid msg) /\ mb_depth b = length (mp_path pf) /\ mb_cofactor b = mp_cofactor pf.
Proof.
  intros [_ [V _]] E.
  destruct (le_lt_dec (length (mp_path pf)) 31) as [L|L]; [|].
  2: { rewrite block_with_long in E by lia. discriminate. }
  rewrite block_with_spec in E by exact L. cbv zeta in E. destruct (_ =? _)%N; [|discriminate]. injection E as <-.
  cbn. split; [|split; reflexivity]. split; [exact L|split; [exact V|split; [reflexivity|]]]. cbn. apply path_tree_pwf. reflexivity.
Qed.

Theorem session_view md t c L b :
  good_tree t -> c = pcommit (mt_depth t) (mt_cofactor t) (tree_full t) -> session md c L b ->
  (exists pt, view_block t b pt) \/ collision_in (L ++ tree_pre t).
Proof.
  intros G ->. induction 1 as [bs b pt D B E|bs pf pid msg b D C E|L b ids b' r S IH E|L1 L2 b1 b2 b' r S1 IH1 S2 IH2 E
    |L b bs o po b' r S IH D B E|L b bs pf pid msg b' r S IH D E|L b p m pf b' S IH I E1 E2].
  - rewrite (wf_commit md b pt B) in E. injection E as E.
    destruct (wf_view b t pt G B E) as [V|K]; [left; eauto|right; exact K].
  - apply decoded_proof in D. destruct (convolve_inv _ _ _ _ _ D C) as [_ [_ [_ Q]]].
    destruct (with_tree pf pid msg b D E) as [B [E1 E2]].
    destruct (wf_view b t _ G B) as [V|K]; [rewrite E1, E2; symmetry; exact Q|left; eauto|right].
    rewrite E1, E2 in K. exact K.
  - destruct IH as [[pt V]|K]; [left|right; exact K].
    destruct (view_conceal_gen md t b pt ids G V) as [b1 [r1 [pt' [E' [Vb _]]]]].
    rewrite E in E'. injection E' as -> ->. eauto.
  - destruct IH1 as [[t1 V1]|K]; [|right; eapply coll_incl; [|exact K]; intros x HI; rewrite !in_app_iff in *; tauto].
    destruct IH2 as [[t2 V2]|K]; [|right; eapply coll_incl; [|exact K]; intros x HI; rewrite !in_app_iff in *; tauto].
    left. destruct (view_merge md t b1 b2 t1 t2 G V1 V2) as [b3 [E' [Vb _]]]. rewrite E in E'. injection E' as -> ->. eauto.
  - destruct IH as [[pt V]|K]; [|right; eapply coll_incl; [|exact K]; intros x HI; rewrite !in_app_iff in *; tauto].
    destruct (feed_view md t b o pt po b' r G V B E) as [X|K]; [left; exact X|].
    right; eapply coll_incl; [|exact K]; intros x HI; rewrite !in_app_iff in *; tauto.
  - destruct IH as [[pt V]|K]; [|right; eapply coll_incl; [|exact K]; intros x HI; rewrite !in_app_iff in *; tauto].
    apply decoded_proof in D. unfold merge_reveal_path in E.
    destruct (block_with pf pid msg) as [[o|e]|] eqn:W; cbn [bind] in E; [|injection E as <- _; left; eauto|discriminate].
    destruct (with_tree pf pid msg o D W) as [B [E1 E2]].
    destruct (feed_view md t b o pt _ b' r G V B E) as [X|K]; [left; exact X|]. rewrite E1, E2 in K.
    right; eapply coll_incl; [|exact K]; intros x HI; unfold proof_pre; rewrite !in_app_iff in *; tauto.
  - destruct IH as [[pt V]|K]; [left|right; exact K]. pose proof V as [[_ [_ [Hx _]]] _]. rewrite Hx, known_leaves_flatten in I.
    destruct (view_proof md t b pt p m G V I) as [pf' [b1 [F1 [F2 [Vb _]]]]].
    rewrite E1 in F1. injection F1 as <-. rewrite E2 in F2. injection F2 as <-. eauto.
Qed.

End WithHash.
