(** Blocks derived from trees; binding of blocks. *)
From Verif Require Import Base BaseFacts OrdMap OrdMapFacts SpecHash HashFacts Merkle MpcAtoms
  MpcTree MpcBlock SpecTree SpecMerkle SpecCommit SpecDerived TreeFacts ConcealProofs BlockInv PathProofs
  MergeProofs MerkleProofs MpcTreeProofs.
From Verif Require Import SpecValid SpecFull.
From Coq Require Import Permutation Sorted.
Local Open Scope nat_scope.

(** ** Positions of revealed leaves *)
Lemma leaves_at_sorted D d o t :
  pwf D d t -> StronglySorted N.lt (map fst (pleaves_at D d o t)).
Proof.
  revert d o; induction t as [h|p m|l IHl r IHr]; intros d o W; cbn.
  - constructor.
  - constructor; [constructor|constructor].
  - cbn in W. destruct W as [Wl Wr]. pose proof (pwf_depth _ _ _ Wl) as HD.
    rewrite map_app.
    assert (G : forall l1 l2 : list N, StronglySorted N.lt l1 -> StronglySorted N.lt l2 ->
              (forall x y, In x l1 -> In y l2 -> (x < y)%N) -> StronglySorted N.lt (l1 ++ l2)).
    { clear. induction l1 as [|a l1 IH]; intros l2 S1 S2 HL; cbn; [exact S2|].
      inversion S1 as [|? ? S1' F1]; subst. constructor.
      - apply IH; [exact S1'|exact S2|]. intros x y Hx Hy. apply HL; [right; exact Hx|exact Hy].
      - apply Forall_app. split; [exact F1|]. apply Forall_forall. intros y Hy.
        apply HL; [left; reflexivity|exact Hy]. }
    apply G; [apply IHl; exact Wl|apply IHr; exact Wr|].
    intros x y Hx Hy. apply in_map_iff in Hx as [[q e] [<- Hx]]. apply in_map_iff in Hy as [[q' e'] [<- Hy]].
    apply (pleaves_at_range _ _ _ _ _ _ Wl) in Hx. apply (pleaves_at_range _ _ _ _ _ _ Wr) in Hy.
    cbn. unfold sp in *. lia.
Qed.
Lemma sorted_lt_NoDup (l : list N) : StronglySorted N.lt l -> NoDup l.
Proof.
  induction 1 as [|a l S IH F]; constructor; [|exact IH].
  intros HI. rewrite Forall_forall in F. apply F in HI. lia.
Qed.

Section WithHash.
Context {H : Hasher}.

Lemma compat_leaves D W d o a b q e e' :
  pcompat W d a b -> pwf D d a -> pwf D d b ->
  In (q, e) (pleaves_at D d o a) -> In (q, e') (pleaves_at D d o b) -> e = e'.
Proof.
  revert b d o; induction a as [h|p m|l IHl r IHr]; intros b d o C Wa Wb Ia Ib.
  - destruct Ia.
  - destruct b as [h'|p' m'|l' r']; [destruct Ib| |destruct C].
    destruct C as [-> ->]. destruct Ia as [Ia|[]]. destruct Ib as [Ib|[]]. congruence.
  - destruct b as [h'|p' m'|l' r']; [destruct Ib|destruct C|].
    cbn in C, Wa, Wb. destruct C as [C1 C2], Wa as [W1 W2], Wb as [V1 V2].
    cbn in Ia, Ib. apply in_app_or in Ia. apply in_app_or in Ib.
    destruct Ia as [Ia|Ia], Ib as [Ib|Ib].
    + eapply IHl; eassumption.
    + apply (pleaves_at_range _ _ _ _ _ _ W1) in Ia. apply (pleaves_at_range _ _ _ _ _ _ V2) in Ib. unfold sp in *. lia.
    + apply (pleaves_at_range _ _ _ _ _ _ W2) in Ia. apply (pleaves_at_range _ _ _ _ _ _ V1) in Ib. unfold sp in *. lia.
    + eapply IHr; eassumption.
Qed.


(** ** Views *)
Lemma pview_leaves_at D W d o t s x :
  pview W d t s -> In x (pleaves_at D d o t) -> In x (pleaves_at D d o s).
Proof.
  revert s d o; induction t as [h|p m|l IHl r IHr]; intros s d o V HI.
  - destruct HI.
  - destruct s; [destruct V| |destruct V]. destruct V as [-> ->]. exact HI.
  - destruct s; [destruct V|destruct V|]. cbn in *. destruct V as [V1 V2].
    apply in_app_or in HI. apply in_or_app. destruct HI as [HI|HI]; [left; apply IHl|right; apply IHr]; assumption.
Qed.
Lemma pview_leaves W d t s x : pview W d t s -> In x (pleaves t) -> In x (pleaves s).
Proof.
  intros V HI. rewrite <- (pleaves_at_leaves 0 d 0) in HI |- *. apply in_map_iff in HI as [y [<- HI]].
  apply in_map. eapply pview_leaves_at; eassumption.
Qed.
Lemma pview_pwf D W d t s : pview W d t s -> pwf D d s -> pwf D d t.
Proof.
  revert s d; induction t as [h|p m|l IHl r IHr]; intros s d V Ws; cbn.
  - eapply pwf_depth; exact Ws.
  - destruct s; [destruct V|exact Ws|destruct V].
  - destruct s; [destruct V|destruct V|]. cbn in *. destruct V, Ws. split; [eapply IHl|eapply IHr]; eassumption.
Qed.
Lemma pkeep_view f W d t : pview W d (pkeep f t) t.
Proof.
  revert d; induction t as [h|p m|l IHl r IHr]; intros d; cbn.
  - reflexivity.
  - destruct (f p); cbn; auto.
  - split; [apply IHl|apply IHr].
Qed.
Lemma pview_placed D W cof t s : pview W 0 t s -> placed D cof s -> placed D cof t.
Proof. intros V P q p m HI. eapply P, pview_leaves_at; eassumption. Qed.

(** ** Derived blocks *)
Definition view_block (t : merkle_tree) (b : merkle_block) (pt : ptree) : Prop :=
  block_tree b pt /\ pview (width_of (mt_depth t)) 0 pt (tree_full t) /\
  mb_depth b = mt_depth t /\ mb_cofactor b = mt_cofactor t /\ mb_method b = mt_method t.

Lemma view_block_tree t : good_tree t -> view_block t (block_of_tree t) (tree_full t).
Proof.
  intros G. split; [apply block_of_tree_wf; exact G|]. split; [apply pview_refl|]. repeat split.
Qed.
Lemma view_block_placed t b pt :
  good_tree t -> view_block t b pt -> placed (mb_depth b) (mb_cofactor b) pt.
Proof.
  intros G [_ [V [ED [EC _]]]]. rewrite ED, EC. eapply pview_placed; [exact V|]. apply tree_full_placed. exact G.
Qed.
Lemma view_block_leaves t b pt p m :
  good_tree t -> view_block t b pt -> In (p, m) (pleaves pt) -> In (p, m) (mt_messages t).
Proof.
  intros G [_ [V _]] HI. apply (tree_full_pleaves t p m G). eapply pview_leaves; eassumption.
Qed.
Lemma view_block_commit md t b pt :
  good_tree t -> view_block t b pt ->
  block_commit_id md b = Ret (pcommit (mt_depth t) (mt_cofactor t) (tree_full t)).
Proof.
  intros G [[HD [Hc [Hx Hw]]] [V [ED [EC _]]]].
  rewrite (block_commit_id_ok md b pt HD Hx (pwf_loose_of _ _ _ Hw)), ED, EC.
  unfold pcommit. pose proof (pview_phash _ _ _ _ V) as PV. unfold width_of in PV. rewrite PV. reflexivity.
Qed.

Lemma view_conceal_gen md t b pt ids :
  good_tree t -> view_block t b pt ->
  exists b' r pt', conceal_except md b ids = Ret (b', r) /\ view_block t b' pt' /\
    (match r with
     | Ok _ => (forall p, In p ids -> In p (map fst (pleaves pt))) /\
               pt' = prestrict (mem ids) (width_of (mt_depth t)) 0 pt
     | Err q => In q ids /\ ~ In q (map fst (pleaves pt)) /\ pt' = pkeep (mem ids) pt end).
Proof.
  intros G [[HD [Hc [Hx Hw]]] [V [ED [EC EM]]]].
  assert (Dec : (forall p, In p ids -> In p (map fst (pleaves pt))) \/
                exists p, In p ids /\ ~ In p (map fst (pleaves pt))).
  { induction ids as [|p ids [IH|[q [I1 I2]]]].
    - left. intros p [].
    - destruct (mem (map fst (pleaves pt)) p) eqn:E.
      + left. intros x [<-|HI]; [apply mem_In; exact E|apply IH; exact HI].
      + right. exists p. split; [left; reflexivity|]. intros HI. apply mem_In in HI. congruence.
    - right. exists q. split; [right; exact I1|exact I2]. }
  destruct Dec as [A|[p [I1 I2]]].
  - pose proof (conceal_except_ok md b pt ids HD Hx (pwf_loose_of _ _ _ Hw) A) as E. cbv zeta in E.
    eexists _, _, _. split; [exact E|]. split; [|split; [exact A|rewrite <- ED; reflexivity]].
    split; [|split; [|repeat split; assumption]].
    + split; [exact HD|]. split; [exact Hc|]. split; [reflexivity|]. cbn. apply prestrict_pwf. exact Hw.
    + rewrite ED. eapply pview_trans; [apply prestrict_view|exact V].
  - destruct (conceal_except_err md b pt ids p Hx (pwf_loose_of _ _ _ Hw) I1 I2) as [q [E [J1 [J2 _]]]].
    eexists _, _, _. split; [exact E|]. split; [|split; [exact J1|split; [exact J2|reflexivity]]].
    split; [|split; [|repeat split; assumption]].
    + split; [exact HD|]. split; [exact Hc|]. split; [reflexivity|]. cbn. apply pkeep_pwf. exact Hw.
    + eapply pview_trans; [apply pkeep_view|exact V].
Qed.

Lemma view_merge md t b1 b2 t1 t2 :
  good_tree t -> view_block t b1 t1 -> view_block t b2 t2 ->
  exists b', merge_reveal md b1 b2 = Ret (b', Ok (N.of_nat (length (flatten 0 (pjoin t1 t2))) mod 2 ^ 16)%N) /\
    view_block t b' (pjoin t1 t2) /\ mb_entropy b' = mb_entropy b1.
Proof.
  intros G [B1 [V1 [D1 [C1 M1]]]] [B2 [V2 [D2 [C2 M2]]]].
  destruct (merge_reveal_compat md b1 b2 t1 t2 B1 B2) as [E BT]; [congruence|congruence| |].
  - rewrite D1. eapply pview_compat; eassumption.
  - eexists. split; [exact E|]. split; [|reflexivity].
    split; [exact BT|]. split; [|repeat split; assumption]. apply pjoin_view; assumption.
Qed.

Lemma view_proof md t b pt pid msg :
  good_tree t -> view_block t b pt -> In (pid, msg) (pleaves pt) ->
  exists pf b', to_merkle_proof md b pid = Ret (Ok pf) /\ block_with pf pid msg = Ret (Ok b') /\
    view_block t b' (prestrict (mem [pid]) (width_of (mt_depth t)) 0 pt) /\ mb_entropy b' = None /\
    conceal_other md b pid = Ret (b', Ok tt) /\
    length (mp_path pf) = mt_depth t /\ mp_pos pf = s_pos pid (mt_cofactor t) (mt_depth t) /\
    mp_cofactor pf = mt_cofactor t /\ mp_method pf = mt_method t /\
    convolve md pf pid msg = Ret (Ok (pcommit (mt_depth t) (mt_cofactor t) (tree_full t))).
Proof.
  intros G Vb HI. pose proof (view_block_placed t b pt G Vb) as P. pose proof Vb as [BT [V [ED [EC EM]]]].
  destruct (to_merkle_proof_ok md b pt pid msg BT P HI) as [path [Lp [Ep E]]].
  destruct (to_merkle_proof_back md b pt pid msg _ BT P HI E) as [[b' [E1 E2]] E3].
  eexists _, b'. split; [exact E|]. split; [exact E2|].
  assert (HD31 : mt_depth t <= 31) by exact (gt_depth _ G).
  split.
  - assert (In1 : forall p, In p [pid] -> In p (map fst (pleaves pt))).
    { intros p [<-|[]]. apply in_map_iff. exists (pid, msg). split; [reflexivity|exact HI]. }
    destruct BT as [HD [Hc [Hx Hw]]].
    pose proof (conceal_except_ok md b pt [pid] HD Hx (pwf_loose_of _ _ _ Hw) In1) as Q. cbv zeta in Q.
    unfold conceal_other in E1. rewrite Q in E1. cbn in E1. injection E1 as <-.
    split; [|split; [|repeat split; assumption]].
    + split; [exact HD|]. split; [exact Hc|]. split; [cbn; rewrite ED; reflexivity|]. cbn. apply prestrict_pwf. exact Hw.
    + eapply pview_trans; [apply prestrict_view|exact V].
  - split.
    { destruct BT as [HD [Hc [Hx Hw]]].
      assert (In1 : forall p, In p [pid] -> In p (map fst (pleaves pt))).
      { intros p [<-|[]]. apply in_map_iff. exists (pid, msg). split; [reflexivity|exact HI]. }
      pose proof (conceal_except_ok md b pt [pid] HD Hx (pwf_loose_of _ _ _ Hw) In1) as Q. cbv zeta in Q.
      unfold conceal_other in E1. rewrite Q in E1. cbn in E1. injection E1 as <-. reflexivity. }
    split; [exact E1|]. cbn. rewrite Lp, ED, EC, EM. split; [reflexivity|]. split; [apply pos_spec; exact HD31|].
    split; [reflexivity|]. split; [reflexivity|]. rewrite ED, EC, EM in E3. rewrite E3.
    unfold pcommit. pose proof (pview_phash _ _ _ _ V) as PV. unfold width_of in PV. rewrite PV. reflexivity.
Qed.

Theorem derived_view md t b : good_tree t -> derived md t b -> exists pt, view_block t b pt.
Proof.
  intros G. induction 1 as [|b ids b' r Hb [pt IH] E|b1 b2 b' r H1 [t1 IH1] H2 [t2 IH2] E
    |b pid msg pf b' Hb [pt IH] HI E1 E2].
  - exists (tree_full t). apply view_block_tree. exact G.
  - destruct (view_conceal_gen md t b pt ids G IH) as [b1 [r1 [pt' [E' [Vb _]]]]].
    rewrite E in E'. injection E' as -> ->. exists pt'. exact Vb.
  - destruct (view_merge md t b1 b2 t1 t2 G IH1 IH2) as [b3 [E' [Vb _]]].
    rewrite E in E'. injection E' as -> ->. exists (pjoin t1 t2). exact Vb.
  - pose proof IH as [[_ [_ [Hx _]]] _]. rewrite Hx, known_leaves_flatten in HI.
    destruct (view_proof md t b pt pid msg G IH HI) as [pf' [b1 [F1 [F2 [Vb _]]]]].
    rewrite E1 in F1. injection F1 as <-. rewrite E2 in F2. injection F2 as <-.
    eexists. exact Vb.
Qed.

(** ** Message maps *)
Lemma view_map t b pt :
  good_tree t -> view_block t b pt ->
  exists m, to_known_message_map b = Ret m /\ om_sorted b32_ltb m = true /\
    forall p x, In (p, x) m <-> In (p, x) (pleaves pt).
Proof.
  intros G Vb. pose proof Vb as [[HD [Hc [Hx Hw]]] [V [ED [EC EM]]]].
  unfold to_known_message_map. rewrite Hx, known_leaves_flatten.
  assert (Nd : NoDup (map fst (pleaves pt))).
  { pose proof (leaves_at_sorted (mb_depth b) 0 0 pt Hw) as S. apply sorted_lt_NoDup in S.
    rewrite <- (pleaves_at_leaves (mb_depth b) 0 0 pt), map_map.
    pose proof (view_block_placed t b pt G Vb) as P. unfold placed in P.
    revert S P. generalize (pleaves_at (mb_depth b) 0 0 pt) as l. intros l S P.
    induction l as [|[q [p m]] l IH]; cbn in *; [constructor|].
    inversion S as [|? ? N1 N2]; subst. constructor.
    - intros HI. apply in_map_iff in HI as [[q' [p' m']] [Q HI]]. cbn in Q. subst p'. apply N1.
      rewrite (P q p m (or_introl eq_refl)), <- (P q' p m' (or_intror HI)).
      apply in_map_iff. exists (q', (p, m')). split; [reflexivity|exact HI].
    - apply IH; [exact N2|]. intros q' p' m' HI. apply P with (m := m'). right. exact HI. }
  pose proof (om_of_list_perm b32_ltb (pleaves pt) Nd) as Pm.
  assert (L : (N.of_nat (length (om_of_list b32_ltb (pleaves pt))) <= u24_max)%N).
  { rewrite <- (Permutation_length Pm). etransitivity; [|exact (gt_count _ G)].
    assert (length (pleaves pt) <= length (mt_messages t)); [|lia].
    apply NoDup_incl_length; [eapply NoDup_map_inv; exact Nd|].
    intros [p m] HI. eapply view_block_leaves; eassumption. }
  apply N.leb_le in L. rewrite L. eexists. split; [reflexivity|]. split; [apply (om_of_list_sorted b32_ltb)|].
  intros p x. split; intros HI.
  - eapply Permutation_in; [symmetry; exact Pm|exact HI].
  - eapply Permutation_in; [exact Pm|exact HI].
Qed.

Theorem known_map_tree t : good_tree t -> to_known_message_map (block_of_tree t) = Ret (mt_messages t).
Proof.
  intros G. destruct (view_map t _ _ G (view_block_tree t G)) as [m [E [S HI]]]. rewrite E. f_equal.
  apply (om_sorted_ext b32_ltb); [exact S|exact (gt_messages _ G)|].
  intros p x. rewrite HI. apply tree_full_pleaves. exact G.
Qed.

(** ** Proofs of all known protocols *)
Lemma known_proofs_ok md t b pt l :
  good_tree t -> view_block t b pt -> incl l (pleaves pt) ->
  exists ps, known_proofs md b (map fst l) = Ret ps /\ map fst ps = map fst l /\
    Forall2 (fun e x => to_merkle_proof md b (fst e) = Ret (Ok (snd x)) /\
       mp_pos (snd x) = s_pos (fst e) (mt_cofactor t) (mt_depth t) /\
       convolve md (snd x) (fst e) (snd e) = Ret (Ok (pcommit (mt_depth t) (mt_cofactor t) (tree_full t)))) l ps.
Proof.
  intros G Vb. induction l as [|[p m] l IH]; intros I.
  - exists []. repeat split. constructor.
  - destruct IH as [ps [E [Q F]]]; [intros x HI; apply I; right; exact HI|].
    destruct (view_proof md t b pt p m G Vb (I _ (or_introl eq_refl)))
      as [pf [b' [E1 [E2 [_ [_ [_ [_ [Ep [_ [_ Ec]]]]]]]]]]].
    exists ((p, pf) :: ps). cbn. rewrite E1. cbn. rewrite E. cbn. split; [reflexivity|].
    split; [rewrite Q; reflexivity|]. constructor; [|exact F]. cbn. auto.
Qed.

(** ** Blocks against full trees *)
Lemma compat_full_leaves W k d o a f :
  (forall i, is_slot (f i)) -> leaves_deep (d + k) d a ->
  pcompat W d a (full_tree k o f) ->
  forall q p m, In (q, (p, m)) (pleaves_at (d + k) d o a) ->
    (o <= q < o + 2 ^ N.of_nat k)%N /\
    match f q with PLeaf p' m' => p = p' /\ m = m' | PConc h => h = HASH (s_leaf p m) | PBr _ _ => False end.
Proof.
  intros Hf. revert d o a; induction k as [|k IH]; intros d o a L C q p m HI.
  - change (2 ^ N.of_nat 0)%N with 1%N. cbn [full_tree] in C. pose proof (Hf o) as So.
    destruct a as [h|p' m'|l r].
    + destruct HI.
    + destruct HI as [HI|[]]. injection HI as <- <- <-. split; [lia|].
      destruct (f o); cbn in C; [exact C|exact C|destruct C].
    + exfalso. cbn in L. destruct L as [L1 L2].
      assert (No : forall t e x, e > d + 0 -> leaves_deep (d + 0) e t -> ~ In x (pleaves t)).
      { clear. induction t as [h|p m|l IHl r IHr]; intros e x Le L HI; cbn in *; [exact HI|lia|].
        destruct L as [La Lb]. apply in_app_or in HI as [HI|HI].
        - eapply (IHl (S e)); [|exact La|exact HI]. lia.
        - eapply (IHr (S e)); [|exact Lb|exact HI]. lia. }
      assert (HI' : In (p, m) (pleaves (PBr l r))).
      { rewrite <- (pleaves_at_leaves (d + 0) d o). apply in_map_iff. exists (q, (p, m)). auto. }
      cbn in HI'. apply in_app_or in HI' as [HI'|HI'].
      * apply (No l (S d) _ ltac:(lia) L1 HI').
      * apply (No r (S d) _ ltac:(lia) L2 HI').
  - destruct a as [h|p' m'|l r].
    + destruct HI.
    + cbn in L. lia.
    + cbn in C, L. destruct C as [C1 C2], L as [L1 L2]. cbn [pleaves_at] in HI.
      rewrite Nat2N.inj_succ, N.pow_succ_r'. apply in_app_or in HI as [HI|HI].
      * replace (d + S k) with (S d + k) in * by lia. destruct (IH (S d) o l L1 C1 q p m HI) as [R M].
        split; [lia|exact M].
      * replace (d + S k) with (S d + k) in * by lia. replace (S d + k - S d) with k in HI by lia.
        destruct (IH (S d) _ r L2 C2 q p m HI) as [R M]. split; [lia|exact M].
Qed.

Lemma ppre_leaf W d t p m : In (p, m) (pleaves t) -> In (s_leaf p m) (ppre W d t).
Proof.
  revert d; induction t as [h|p' m'|l IHl r IHr]; intros d HI; cbn in *.
  - exact HI.
  - destruct HI as [HI|[]]. injection HI as -> ->. left. reflexivity.
  - right. apply in_or_app. apply in_app_or in HI as [HI|HI]; [left; apply IHl|right; apply IHr]; exact HI.
Qed.

Lemma pwf_loose_deep D d t : pwf_loose D d t -> leaves_deep D d t.
Proof.
  revert d; induction t as [h|p m|l IHl r IHr]; intros d W; cbn in *; [exact I|exact W|].
  destruct W. split; [apply IHl|apply IHr]; assumption.
Qed.

Theorem block_vouches b t pt :
  good_tree t -> mb_depth b <= 31 -> (mb_cofactor b < 2 ^ 16)%N ->
  mb_cross_section b = flatten 0 pt -> pwf_loose (mb_depth b) 0 pt ->
  pcommit (mb_depth b) (mb_cofactor b) pt = pcommit (mt_depth t) (mt_cofactor t) (tree_full t) ->
  (mb_depth b = mt_depth t /\ mb_cofactor b = mt_cofactor t /\
   forall q p m, In (q, (p, m)) (pleaves_at (mb_depth b) 0 0 pt) ->
     In (p, m) (mt_messages t) /\ q = s_pos p (mt_cofactor t) (mt_depth t)) \/
  collision_in (pcommit_pre (mb_depth b) (mb_cofactor b) pt ++ tree_pre t).
Proof.
  intros G HD Hc Hx Hw E.
  assert (B16 : (500 < 2 ^ 16)%N) by reflexivity. pose proof (gt_cofactor _ G) as Gc.
  assert (Gc' : (mt_cofactor t < 2 ^ 16)%N) by lia.
  destruct (pcommit_inj _ _ _ _ _ _ HD (gt_depth _ G) Hc Gc' E) as [[ED [EC C]]|C].
  2: { right. eapply coll_incl; [|exact C]. intros x HI. unfold tree_pre. rewrite !in_app_iff in *. tauto. }
  rewrite ED in *. unfold tree_full in C.
  pose proof (compat_full_leaves _ (mt_depth t) 0 0 pt (slot t) (slot_is_slot t) (pwf_loose_deep _ _ _ Hw) C) as F.
  cbn [Nat.add] in F.
  (* decide leaf by leaf *)
  assert (G1 : forall l, incl l (pleaves_at (mt_depth t) 0 0 pt) ->
     (forall q p m, In (q, (p, m)) l -> In (p, m) (mt_messages t) /\ q = s_pos p (mt_cofactor t) (mt_depth t))
     \/ collision_in (pcommit_pre (mt_depth t) (mb_cofactor b) pt ++ tree_pre t)).
  { induction l as [|[q [p m]] l IH]; intros I; [left; intros q p m []|].
    destruct IH as [IH|IH]; [intros x Hx'; apply I; right; exact Hx'| |right; exact IH].
    destruct (F q p m (I _ (or_introl eq_refl))) as [R M]. unfold slot in M.
    destruct (om_get N.ltb q (mt_map t)) as [[p' m']|] eqn:Eg.
    - destruct M as [-> ->]. left. intros q' p'' m'' [Q|HI]; [|apply IH; exact HI].
      injection Q as <- <- <-. apply (gt_map _ G). apply (om_get_In N.ltb). exact Eg.
    - right. exists (s_leaf p m), (s_entropy (mt_entropy t) q). repeat split.
      + apply in_or_app. left. unfold pcommit_pre. apply in_or_app. right. apply ppre_leaf.
        rewrite <- (pleaves_at_leaves (mt_depth t) 0 0). apply in_map_iff. exists (q, (p, m)).
        split; [reflexivity|]. apply I. left. reflexivity.
      + apply in_or_app. right. unfold tree_pre, entropy_pre. apply in_or_app. right. apply in_flat_map.
        exists q. rewrite Eg. split; [apply N_from_In; rewrite pow_of_nat; lia|left; reflexivity].
      + apply s_leaf_entropy.
      + symmetry. exact M. }
  destruct (G1 _ (incl_refl _)) as [A|A]; [left|right; exact A]. auto.
Qed.

(** Release builds: nodes after a depth-0 node are ignored by the commitment. *)
Theorem release_forgery mth D cof root p m :
  D <= 31 ->
  exists b, mb_depth b = D /\ mb_cofactor b = cof /\ mb_method b = mth /\ mb_entropy b = None /\
    known_leaves (mb_cross_section b) = [(p, m)] /\ length (mb_cross_section b) <= 3 /\
    Forall (fun n => match n with ConcealedNode d _ => d <= 31 | _ => True end) (mb_cross_section b) /\
    block_commit_id Release b = Ret (HASH (s_commit D cof root)).
Proof.
  intros HD. destruct D as [|D].
  - exists (MBlock mth 0 cof [ConcealedNode 0 root; ConcealedNode 1 root; CommitmentLeaf p m] None).
    do 5 (split; [reflexivity|]). split; [cbn; lia|]. split.
    { cbn. repeat (apply Forall_cons || apply Forall_nil); first [exact I|lia]. }
    unfold block_commit_id.
    replace (block_conceal Release _) with (Ret (MConcealed 0 cof root)) by (vm_compute; reflexivity).
    cbn [bind]. rewrite commit_spec. reflexivity.
  - exists (MBlock mth (S D) cof [ConcealedNode 0 root; CommitmentLeaf p m] None).
    do 5 (split; [reflexivity|]). split; [cbn; lia|]. split.
    { cbn. repeat (apply Forall_cons || apply Forall_nil); first [exact I|lia]. }
    unfold block_commit_id, block_conceal. rewrite conceal_except_unfold.
    replace (missing [] _) with (@nil bytes32).
    2: { symmetry. apply missing_nil. intros q []. }
    cbn [mb_cross_section mb_depth map keep_node mem existsb length].
    cbn [conceal_loop]. rewrite pass_pass1. cbn [debug_assert bind].
    assert (N1 : node_span Release (S D) 0 = Ret (sp (S D) 0)) by (apply node_span_ok; lia).
    assert (N2 : node_span Release (S D) (S D) = Ret (sp (S D) (S D))) by (apply node_span_ok; lia).
    cbn [pass1]. replace (0 =? S D) with false by reflexivity. rewrite N1. cbn [bind].
    assert (B : (sp (S D) 0 <= 2 ^ 31)%N) by (apply sp_bound; exact HD).
    assert (P31 : (2 ^ 31 + 2 ^ 31 = 2 ^ 32)%N) by reflexivity.
    rewrite u32_add_ok by lia. cbn [bind]. rewrite N2. cbn [bind].
    assert (B1 : sp (S D) (S D) = 1%N) by (unfold sp; rewrite Nat.sub_diag; reflexivity).
    rewrite B1. rewrite u32_add_ok by lia. cbn [bind]. rewrite N.eqb_refl. cbn - [concealed_commit_id].
    rewrite commit_spec. reflexivity.
Qed.

(** ** Collecting proofs *)
Lemma mem_cons p ids q : mem (p :: ids) q = (b32_eqb q p || mem ids q)%bool.
Proof. reflexivity. Qed.

Lemma collected_spec md t ids b :
  good_tree t -> collected md t ids b ->
  view_block t b (prestrict (mem ids) (width_of (mt_depth t)) 0 (tree_full t)) /\ mb_entropy b = None /\
  (forall p, In p ids -> In p (map fst (mt_messages t))).
Proof.
  intros G. induction 1 as [pid msg pf b Hm E1 E2|ids b pid msg pf b' n Hc [IH1 [IH2 IH3]] Hm E1 E2].
  - pose proof (proj2 (tree_full_pleaves t pid msg G) Hm) as Hl.
    destruct (view_proof md t _ _ pid msg G (view_block_tree t G) Hl) as [pf' [b1 [F1 [F2 [Vb [En _]]]]]].
    rewrite E1 in F1. injection F1 as <-. rewrite E2 in F2. injection F2 as <-.
    split; [exact Vb|]. split; [exact En|]. intros p [<-|[]]. apply in_map_iff. exists (pid, msg). auto.
  - pose proof (proj2 (tree_full_pleaves t pid msg G) Hm) as Hl.
    destruct (view_proof md t _ _ pid msg G (view_block_tree t G) Hl) as [pf' [b1 [F1 [F2 [Vb [En _]]]]]].
    rewrite E1 in F1. injection F1 as <-.
    unfold merge_reveal_path in E2. rewrite F2 in E2. cbn [bind] in E2.
    destruct (view_merge md t _ _ _ _ G IH1 Vb) as [b2 [Em [Vm Ee]]].
    rewrite Em in E2. injection E2 as <- _. split; [|split].
    + rewrite pjoin_prestrict in Vm. erewrite prestrict_ext; [exact Vm|].
      intros p m _. rewrite mem_cons. unfold mem at 3. cbn. rewrite orb_false_r. apply orb_comm.
    + rewrite Ee. exact IH2.
    + intros p [<-|HI]; [apply in_map_iff; exists (pid, msg); auto|apply IH3; exact HI].
Qed.

Lemma collected_exists md t ids :
  good_tree t -> ids <> [] -> (forall p, In p ids -> In p (map fst (mt_messages t))) ->
  exists b, collected md t ids b.
Proof.
  intros G Ne A. induction ids as [|p ids IH]; [congruence|].
  assert (Hp : exists m, In (p, m) (mt_messages t)).
  { specialize (A p (or_introl eq_refl)). apply in_map_iff in A as [[p' m] [Q HI]]. cbn in Q. subst p'. eauto. }
  destruct Hp as [m Hm]. pose proof (proj2 (tree_full_pleaves t p m G) Hm) as Hl.
  destruct (view_proof md t _ _ p m G (view_block_tree t G) Hl) as [pf [b1 [F1 [F2 [Vb [En _]]]]]].
  destruct ids as [|p2 ids].
  - exists b1. econstructor; eassumption.
  - destruct IH as [b IHb]; [discriminate|intros x HI; apply A; right; exact HI|].
    destruct (collected_spec md t _ b G IHb) as [V1 _].
    destruct (view_merge md t _ _ _ _ G V1 Vb) as [b2 [Em [Vm Ee]]].
    exists b2. eapply cl_more; [exact IHb|exact Hm|exact F1|]. unfold merge_reveal_path. rewrite F2. exact Em.
Qed.

Theorem collected_conceal md t ids ids' b :
  good_tree t -> collected md t ids b -> (forall p, In p ids <-> In p ids') ->
  exists n, conceal_except md (block_of_tree t) ids' = Ret (b, Ok n).
Proof.
  intros G C Eq. destruct (collected_spec md t ids b G C) as [V [En A]].
  destruct (view_conceal_gen md t _ _ ids' G (view_block_tree t G)) as [b' [r [pt' [E [Vb R]]]]].
  destruct r as [n|q].
  - destruct R as [_ ->]. exists n. rewrite E. f_equal. f_equal.
    assert (En' : mb_entropy b' = None).
    { rewrite conceal_except_unfold in E. destruct (missing ids' _); [|injection E as <-; reflexivity].
      apply bind_inv in E as [[xs c] [_ E]]. injection E as <- _. reflexivity. }
    destruct V as [[_ [_ [X1 _]]] [_ [D1 [C1 M1]]]], Vb as [[_ [_ [X2 _]]] [_ [D2 [C2 M2]]]].
    destruct b as [m d c xs e], b' as [m' d' c' xs' e']. cbn in *. subst. f_equal.
    f_equal. apply prestrict_ext. intros p m _.
    destruct (mem ids' p) eqn:M.
    + apply mem_In, Eq, mem_In in M. symmetry. exact M.
    + destruct (mem ids p) eqn:M2; [|reflexivity]. apply mem_In, Eq, mem_In in M2. congruence.
  - exfalso. destruct R as [I1 [I2 _]]. apply I2. apply Eq, A in I1.
    apply in_map_iff in I1 as [[p m] [Q HI]]. cbn in Q. subst p. apply in_map_iff. exists (q, m).
    split; [reflexivity|]. apply tree_full_pleaves; assumption.
Qed.

End WithHash.
