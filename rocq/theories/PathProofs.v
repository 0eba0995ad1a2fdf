(** Merkle proofs: a proof is a tree revealing one leaf. *)
From Verif Require Import Base BaseFacts OrdMap OrdMapFacts SpecHash HashFacts Merkle MpcAtoms
  MpcTree MpcBlock SpecTree TreeFacts ConcealProofs BlockInv.
From Coq Require Import Permutation.
Local Open Scope nat_scope.

(** ** Positions *)
Lemma protocol_id_pos_spec pid cof D :
  D <= 31 ->
  protocol_id_pos pid cof D = (N_of_b32 pid mod N.max (2 ^ N.of_nat D - cof) 1)%N /\
  (protocol_id_pos pid cof D < 2 ^ N.of_nat D)%N.
Proof.
  intros HD. unfold protocol_id_pos, width_of.
  set (w := (2 ^ N.of_nat D)%N). set (k := N.max (w - cof) 1).
  assert (Hw : (0 < w)%N) by (apply (width_of_pos D)).
  assert (Hb : (w <= 2 ^ 31)%N) by (apply (width_of_bound D HD)).
  assert (Hr : (N_of_b32 pid mod k < k)%N) by (apply N.mod_lt; subst k; lia).
  assert (Hk : (k <= w)%N) by (subst k; lia).
  assert (L64 : (2 ^ 31 < 2 ^ 64)%N) by reflexivity.
  assert (L32 : (2 ^ 31 < 2 ^ 32)%N) by reflexivity.
  rewrite (N.mod_small _ (2 ^ 64)) by lia. rewrite (N.mod_small _ (2 ^ 32)) by lia.
  split; [reflexivity|lia].
Qed.

(** ** From a proof to a block *)
Lemma with_loop_spec path i pos p m :
  i + length path <= 31 ->
  exists dir rv,
    with_loop path i pos (2 ^ N.of_nat (length path)) = Ret (dir, rv) /\
    dir ++ [CommitmentLeaf p m] ++ rev rv = flatten i (path_tree path pos p m).
Proof.
  revert i pos; induction path as [|h r IH]; intros i pos L.
  - exists [], []. split; reflexivity.
  - cbn [with_loop length] in *. unfold u5_with.
    replace (i <=? u5_max) with true by (symmetry; apply Nat.leb_le; unfold u5_max; lia).
    cbn [bind]. unfold u5_add.
    replace (i + 1 <=? u5_max) with true by (symmetry; apply Nat.leb_le; unfold u5_max; lia).
    cbn [bind].
    replace (2 ^ N.of_nat (S (length r)) / 2)%N with (2 ^ N.of_nat (length r))%N.
    2: { rewrite Nat2N.inj_succ, N.pow_succ_r', N.mul_comm, N.div_mul; [reflexivity|discriminate]. }
    cbn [path_tree]. replace (i + 1) with (S i) by lia.
    destruct (2 ^ N.of_nat (length r) <=? pos)%N.
    + destruct (IH (S i) (pos - 2 ^ N.of_nat (length r))%N) as [dir [rv [E1 E2]]]; [lia|].
      rewrite E1. exists (ConcealedNode (S i) h :: dir), rv. split; [reflexivity|].
      cbn [flatten]. rewrite <- E2. reflexivity.
    + destruct (IH (S i) pos) as [dir [rv [E1 E2]]]; [lia|].
      rewrite E1. exists dir, (ConcealedNode (S i) h :: rv). split; [reflexivity|].
      cbn [flatten rev]. rewrite <- E2. rewrite !app_assoc. reflexivity.
Qed.

Lemma path_tree_pwf path pos p m D d : d + length path = D -> pwf D d (path_tree path pos p m).
Proof.
  revert pos d; induction path as [|h r IH]; intros pos d E; cbn in *; [lia|].
  destruct (_ <=? pos)%N; cbn; (split; [|]); try lia; apply IH; lia.
Qed.

Definition proof_tree (pf : merkle_proof) (pid msg : bytes32) : ptree :=
  path_tree (mp_path pf) (mp_pos pf) pid msg.

Theorem block_with_spec pf pid msg :
  length (mp_path pf) <= 31 ->
  block_with pf pid msg =
  let D := length (mp_path pf) in
  let expected := protocol_id_pos pid (mp_cofactor pf) D in
  if (expected =? mp_pos pf)%N then
    Ret (Ok (MBlock (mp_method pf) D (mp_cofactor pf) (flatten 0 (proof_tree pf pid msg)) None))
  else Ret (Err (InvalidProof pid expected (mp_pos pf) (2 ^ N.of_nat D))).
Proof.
  intros L. unfold block_with, mp_width_limit, mp_depth, u5_with.
  replace (length (mp_path pf) <=? u5_max) with true by (symmetry; apply Nat.leb_le; exact L).
  cbn [bind]. unfold width_of. cbv zeta. destruct (protocol_id_pos _ _ _ =? _)%N; [|reflexivity].
  cbn [negb]. destruct (with_loop_spec (mp_path pf) 0 (mp_pos pf) pid msg L) as [dir [rv [E1 E2]]].
  rewrite E1. cbn [bind]. rewrite E2. reflexivity.
Qed.

Section Path.
Context {H : Hasher}.

Theorem convolve_spec md pf pid msg :
  length (mp_path pf) <= 31 ->
  convolve md pf pid msg =
  let D := length (mp_path pf) in
  let expected := protocol_id_pos pid (mp_cofactor pf) D in
  if (expected =? mp_pos pf)%N then Ret (Ok (pcommit D (mp_cofactor pf) (proof_tree pf pid msg)))
  else Ret (Err (InvalidProof pid expected (mp_pos pf) (2 ^ N.of_nat D))).
Proof.
  intros L. unfold convolve. rewrite block_with_spec by exact L. cbv zeta.
  destruct (protocol_id_pos _ _ _ =? _)%N; cbn [bind]; [|reflexivity].
  rewrite (block_commit_id_ok md _ (proof_tree pf pid msg)).
  - reflexivity.
  - exact L.
  - reflexivity.
  - apply pwf_loose_of, path_tree_pwf. reflexivity.
Qed.

Theorem convolve_long md pf pid msg :
  32 <= length (mp_path pf) -> convolve md pf pid msg = Panic PAssert.
Proof.
  intros L. unfold convolve, block_with, mp_width_limit, mp_depth, u5_with.
  replace (length (mp_path pf) <=? u5_max) with false; [reflexivity|].
  symmetry. apply Nat.leb_gt. unfold u5_max. lia.
Qed.

(** ** Binding *)
Lemma path_tree_compat W path path' pos d p m p' m' :
  length path = length path' ->
  pcompat W d (path_tree path pos p m) (path_tree path' pos p' m') -> p = p' /\ m = m'.
Proof.
  revert path' pos d; induction path as [|h r IH]; intros [|h' r'] pos d L C; try discriminate.
  - exact C.
  - injection L as L. cbn in C. rewrite <- L in C.
    destruct (_ <=? pos)%N; cbn in C; destruct C as [C1 C2]; eapply IH; eassumption.
Qed.

Lemma pcommit_inj D D' c c' t t' :
  D <= 31 -> D' <= 31 -> (c < 2 ^ 16)%N -> (c' < 2 ^ 16)%N ->
  pcommit D c t = pcommit D' c' t' ->
  (D = D' /\ c = c' /\ pcompat (2 ^ N.of_nat D) 0 t t')
  \/ collision_in (pcommit_pre D c t ++ pcommit_pre D' c' t').
Proof.
  intros HD HD' Hc Hc' E.
  destruct (fun I1 I2 => coll (pcommit_pre D c t ++ pcommit_pre D' c' t') _ _ I1 I2 E) as [E'|C].
  - cbn. auto 10.
  - apply in_or_app. right. cbn. auto.
  - apply s_commit_inj in E' as [-> [-> E']]; [|lia|lia|assumption|assumption].
    destruct (phash_compat _ _ _ _ E') as [C|C]; [left; auto|right].
    eapply coll_incl; [|exact C]. intros x HI. apply in_app_or in HI. apply in_or_app.
    unfold pcommit_pre. rewrite !in_app_iff. tauto.
  - right. exact C.
Qed.

Theorem convolve_binding md1 md2 pf1 pf2 pid m1 m2 c :
  (mp_cofactor pf1 < 2 ^ 16)%N -> (mp_cofactor pf2 < 2 ^ 16)%N ->
  convolve md1 pf1 pid m1 = Ret (Ok c) -> convolve md2 pf2 pid m2 = Ret (Ok c) ->
  m1 = m2 \/
  collision_in (pcommit_pre (length (mp_path pf1)) (mp_cofactor pf1) (proof_tree pf1 pid m1) ++
                pcommit_pre (length (mp_path pf2)) (mp_cofactor pf2) (proof_tree pf2 pid m2)).
Proof.
  intros Hc1 Hc2 E1 E2.
  destruct (le_lt_dec (length (mp_path pf1)) 31) as [L1|L1];
    [|rewrite convolve_long in E1 by lia; discriminate].
  destruct (le_lt_dec (length (mp_path pf2)) 31) as [L2|L2];
    [|rewrite convolve_long in E2 by lia; discriminate].
  rewrite convolve_spec in E1 by exact L1. rewrite convolve_spec in E2 by exact L2. cbv zeta in E1, E2.
  destruct (protocol_id_pos pid (mp_cofactor pf1) _ =? _)%N eqn:P1; [|discriminate].
  destruct (protocol_id_pos pid (mp_cofactor pf2) _ =? _)%N eqn:P2; [|discriminate].
  injection E1 as E1. injection E2 as E2. apply N.eqb_eq in P1, P2.
  destruct (pcommit_inj (length (mp_path pf1)) (length (mp_path pf2)) (mp_cofactor pf1) (mp_cofactor pf2)
             (proof_tree pf1 pid m1) (proof_tree pf2 pid m2)) as [[ED [EC C]]|C]; try assumption.
  - congruence.
  - left. unfold proof_tree in C. rewrite <- P1 in C. rewrite <- P2 in C. rewrite <- ED, <- EC in C.
    eapply path_tree_compat in C; [tauto|exact ED].
  - right. exact C.
Qed.

(** ** Restricting a tree to one leaf gives a path *)
Lemma pleaves_at_range D d o t q e :
  pwf D d t -> In (q, e) (pleaves_at D d o t) -> (o <= q < o + sp D d)%N.
Proof.
  revert d o; induction t as [h|p m|l IHl r IHr]; intros d o Hw HI; cbn in HI.
  - destruct HI.
  - destruct HI as [HI|[]]. injection HI as <- _. pose proof (sp_pos D d). lia.
  - destruct Hw as [W1 W2]. pose proof (sp_S D d (pwf_depth _ _ _ W1)) as HS.
    apply in_app_or in HI as [HI|HI].
    + apply (IHl _ _ W1) in HI. lia.
    + apply (IHr _ _ W2) in HI. unfold sp in *. lia.
Qed.

Lemma existsb_leaves_at f D d o t :
  existsb (fun e => f (fst e)) (pleaves t) = existsb (fun x => f (fst (snd x))) (pleaves_at D d o t).
Proof.
  rewrite <- (pleaves_at_leaves D d o t). induction (pleaves_at D d o t); cbn; congruence.
Qed.

Lemma prestrict_path W D t d o q p m :
  pwf D d t -> In (q, (p, m)) (pleaves_at D d o t) ->
  (forall q' m', In (q', (p, m')) (pleaves_at D d o t) -> q' = q) ->
  exists path, length path = D - d /\
    prestrict (b32_eqb p) W d t = path_tree path (q - o) p m.
Proof.
  revert d o; induction t as [h|p0 m0|l IHl r IHr]; intros d o Hw HI HU.
  - destruct HI.
  - destruct HI as [HI|[]]. injection HI as <- <- <-. cbn in Hw. exists []. split; [cbn; lia|].
    cbn. rewrite b32_eqb_refl. reflexivity.
  - destruct Hw as [W1 W2]. pose proof (pwf_depth _ _ _ W1) as L.
    cbn [pleaves_at] in HI, HU.
    assert (EX : existsb (fun e => b32_eqb p (fst e)) (pleaves (PBr l r)) = true).
    { rewrite (existsb_leaves_at (b32_eqb p) D d o). apply existsb_exists. exists (q, (p, m)).
      split; [exact HI|apply b32_eqb_refl]. }
    cbn [prestrict]. rewrite EX.
    change (2 ^ N.of_nat (D - S d))%N with (sp D (S d)) in *.
    assert (NX : forall o' x, (forall q' e, In (q', e) (pleaves_at D (S d) o' x) -> q' <> q) ->
              incl (pleaves_at D (S d) o' x) (pleaves_at D (S d) o l ++ pleaves_at D (S d) (o + sp D (S d)) r) ->
              prestrict (b32_eqb p) W (S d) x = PConc (phash W (S d) x)).
    { intros o' x Hq Hincl. apply prestrict_none. rewrite (existsb_leaves_at (b32_eqb p) D (S d) o').
      match goal with |- ?e = false => destruct e eqn:E; [|reflexivity] end.
      exfalso. apply existsb_exists in E as [[q' [p' m']] [E1 E2]].
      cbn in E2. apply b32_eqb_eq in E2. subst p'. apply (Hq _ _ E1). eapply HU. apply Hincl. exact E1. }
    apply in_app_or in HI as [HI|HI].
    + pose proof (pleaves_at_range _ _ _ _ _ _ W1 HI) as R.
      destruct (IHl (S d) o W1 HI) as [path [Lp Ep]].
      { intros q' m' HI'. eapply HU. apply in_or_app. left. exact HI'. }
      exists (phash W (S d) r :: path). split; [cbn; lia|].
      cbn [path_tree]. rewrite Lp. change (2 ^ N.of_nat (D - S d))%N with (sp D (S d)).
      replace (sp D (S d) <=? q - o)%N with false by (symmetry; apply N.leb_gt; lia).
      rewrite Ep. f_equal. apply (NX (o + sp D (S d))%N); [|apply incl_appr, incl_refl].
      intros q' e HI'. apply (pleaves_at_range _ _ _ _ _ _ W2) in HI'. lia.
    + pose proof (pleaves_at_range _ _ _ _ _ _ W2 HI) as R.
      destruct (IHr (S d) (o + sp D (S d))%N W2 HI) as [path [Lp Ep]].
      { intros q' m' HI'. eapply HU. apply in_or_app. right. exact HI'. }
      exists (phash W (S d) l :: path). split; [cbn; lia|].
      cbn [path_tree]. rewrite Lp. change (2 ^ N.of_nat (D - S d))%N with (sp D (S d)).
      replace (sp D (S d) <=? q - o)%N with true by (symmetry; apply N.leb_le; lia).
      rewrite Ep. replace (q - o - sp D (S d))%N with (q - (o + sp D (S d)))%N by lia.
      f_equal. apply (NX o); [|apply incl_appl, incl_refl].
      intros q' e HI'. apply (pleaves_at_range _ _ _ _ _ _ W1) in HI'. lia.
Qed.

(** ** Collecting the path *)
Fixpoint concs (xs : list tree_node) : list (nat * bytes32) :=
  match xs with
  | [] => []
  | ConcealedNode d h :: r => (d, h) :: concs r
  | CommitmentLeaf _ _ :: r => concs r
  end.
Lemma concs_app a b : concs (a ++ b) = concs a ++ concs b.
Proof. induction a as [|[d h|p m] a IH]; cbn; congruence. Qed.

Lemma path_map_spec md xs m :
  om_sorted Nat.ltb m = true -> NoDup (map fst (m ++ concs xs)) ->
  exists m', path_map md xs m = Ret m' /\ om_sorted Nat.ltb m' = true /\ Permutation (m ++ concs xs) m'.
Proof.
  revert m; induction xs as [|[d h|p mm] xs IH]; intros m Hs Hn; cbn.
  - exists m. rewrite app_nil_r. auto.
  - cbn in Hn.
    assert (G : om_get Nat.ltb d m = None).
    { apply (om_get_none Nat.ltb); [exact Hs|]. rewrite map_app in Hn. cbn in Hn.
      apply NoDup_remove_2 in Hn. rewrite in_app_iff in Hn. tauto. }
    pose proof (om_insert_old Nat.ltb d h m) as Ho. rewrite G in Ho.
    pose proof (om_insert_perm Nat.ltb d h m G) as Hp.
    pose proof (om_sorted_insert Nat.ltb d h m Hs) as Hs'.
    destruct (om_insert Nat.ltb d h m) as [old m1]; cbn in *. subst old.
    replace (debug_assert md true) with (Ret tt) by (destruct md; reflexivity). cbn [bind].
    assert (P : Permutation (m ++ (d, h) :: concs xs) (m1 ++ concs xs)).
    { rewrite <- Hp. cbn. symmetry. apply Permutation_middle. }
    destruct (IH m1 Hs') as [m' [E1 [E2 E3]]].
    + eapply Permutation_NoDup; [|exact Hn]. apply Permutation_map. exact P.
    + exists m'. split; [exact E1|]. split; [exact E2|]. rewrite P. exact E3.
  - apply IH; assumption.
Qed.

Lemma concs_path path pos p m d :
  Permutation (concs (flatten d (path_tree path pos p m))) (combine (seq (S d) (length path)) path).
Proof.
  revert pos d; induction path as [|h r IH]; intros pos d; cbn [path_tree].
  - reflexivity.
  - destruct (_ <=? pos)%N; cbn [flatten]; rewrite concs_app; cbn [concs length seq combine].
    + cbn. constructor. apply IH.
    + rewrite Permutation_app_comm. cbn. constructor. apply IH.
Qed.
Lemma combine_fst {A B} (a : list A) (b : list B) : length a = length b -> map fst (combine a b) = a.
Proof. revert b; induction a as [|x a IH]; intros [|y b] L; try discriminate; cbn; [reflexivity|]. injection L as L. rewrite IH by exact L. reflexivity. Qed.
Lemma combine_snd {A B} (a : list A) (b : list B) : length a = length b -> map snd (combine a b) = b.
Proof. revert b; induction a as [|x a IH]; intros [|y b] L; try discriminate; cbn; [reflexivity|]. injection L as L. rewrite IH by exact L. reflexivity. Qed.
Lemma combine_seq_sorted (path : list bytes32) d : om_sorted Nat.ltb (combine (seq d (length path)) path) = true.
Proof.
  revert d; induction path as [|h r IH]; intros d; [reflexivity|].
  cbn [length seq combine]. apply (om_sorted_cons Nat.ltb). split; [|apply IH].
  intros k v HI. apply in_combine_l in HI. apply in_seq in HI. apply Nat.ltb_lt. lia.
Qed.

Lemma path_map_path md path pos p m d :
  path_map md (flatten d (path_tree path pos p m)) [] = Ret (combine (seq (S d) (length path)) path).
Proof.
  pose proof (concs_path path pos p m d) as P.
  destruct (path_map_spec md (flatten d (path_tree path pos p m)) []) as [m' [E1 [E2 E3]]].
  - reflexivity.
  - cbn. eapply Permutation_NoDup; [symmetry; apply Permutation_map; exact P|].
    rewrite combine_fst by (rewrite seq_length; reflexivity). apply seq_NoDup.
  - rewrite E1. f_equal. apply (om_sorted_ext Nat.ltb); [exact E2|apply combine_seq_sorted|].
    cbn in E3. rewrite P in E3. intros k v. split; intros HI.
    + eapply Permutation_in; [symmetry; exact E3|exact HI].
    + eapply Permutation_in; [exact E3|exact HI].
Qed.

(** ** Proof extraction *)
(** Revealed leaves sit at the positions of their ids. *)
Definition placed (D : nat) (cof : N) (t : ptree) : Prop :=
  forall q p m, In (q, (p, m)) (pleaves_at D 0 0 t) -> q = protocol_id_pos p cof D.

Lemma mem_single p q : mem [p] q = b32_eqb p q.
Proof.
  unfold mem. cbn. rewrite orb_false_r.
  destruct (b32_eqb q p) eqn:E; destruct (b32_eqb p q) eqn:E'; try reflexivity.
  - apply b32_eqb_eq in E. subst. rewrite b32_eqb_refl in E'. discriminate.
  - apply b32_eqb_eq in E'. subst. rewrite b32_eqb_refl in E. discriminate.
Qed.

Lemma placed_unique D cof t p m m' :
  placed D cof t -> pwf D 0 t -> In (p, m) (pleaves t) -> In (p, m') (pleaves t) -> m = m'.
Proof.
  intros HP Hw H1 H2. rewrite <- (pleaves_at_leaves D 0 0 t) in H1, H2.
  apply in_map_iff in H1 as [[q1 e1] [E1 H1]]. apply in_map_iff in H2 as [[q2 e2] [E2 H2]].
  cbn in E1, E2. subst e1 e2.
  pose proof (HP _ _ _ H1) as Q1. pose proof (HP _ _ _ H2) as Q2. subst q1 q2.
  assert (U : forall D d o t q e e', pwf D d t -> In (q, e) (pleaves_at D d o t) ->
            In (q, e') (pleaves_at D d o t) -> e = e').
  { clear. intros D d o t; revert d o; induction t as [h|p m|l IHl r IHr]; intros d o q e e' Hw H1 H2;
      cbn in H1, H2.
    - destruct H1.
    - destruct H1 as [H1|[]], H2 as [H2|[]]. congruence.
    - destruct Hw as [W1 W2]. change (2 ^ N.of_nat (D - S d))%N with (sp D (S d)) in *.
      apply in_app_or in H1, H2. destruct H1 as [H1|H1], H2 as [H2|H2].
      + eapply IHl; eassumption.
      + apply (pleaves_at_range _ _ _ _ _ _ W1) in H1. apply (pleaves_at_range _ _ _ _ _ _ W2) in H2. lia.
      + apply (pleaves_at_range _ _ _ _ _ _ W2) in H1. apply (pleaves_at_range _ _ _ _ _ _ W1) in H2. lia.
      + eapply IHr; eassumption. }
  specialize (U _ _ _ _ _ _ _ Hw H1 H2). congruence.
Qed.

Theorem to_merkle_proof_ok md b t pid msg :
  block_tree b t -> placed (mb_depth b) (mb_cofactor b) t -> In (pid, msg) (pleaves t) ->
  exists path,
    length path = mb_depth b /\
    prestrict (mem [pid]) (width_of (mb_depth b)) 0 t =
      path_tree path (protocol_id_pos pid (mb_cofactor b) (mb_depth b)) pid msg /\
    to_merkle_proof md b pid =
      Ret (Ok (MProof (mb_method b) (protocol_id_pos pid (mb_cofactor b) (mb_depth b)) (mb_cofactor b) path)).
Proof.
  intros [HD [Hc [Hx Hw]]] HP HI.
  pose proof HI as HI'. rewrite <- (pleaves_at_leaves (mb_depth b) 0 0 t) in HI'.
  apply in_map_iff in HI' as [[q e] [E HI']]. cbn in E. subst e.
  destruct (prestrict_path (width_of (mb_depth b)) _ t 0 0 q pid msg Hw HI') as [path [Lp Ep]].
  { intros q' m' H'. apply HP in H'. apply HP in HI'. congruence. }
  pose proof (HP _ _ _ HI') as Eq. rewrite N.sub_0_r in Ep. rewrite Nat.sub_0_r in Lp.
  rewrite Eq in Ep.
  assert (ER : prestrict (mem [pid]) (width_of (mb_depth b)) 0 t =
      path_tree path (protocol_id_pos pid (mb_cofactor b) (mb_depth b)) pid msg).
  { rewrite <- Ep. apply prestrict_ext. intros p' m' _. apply mem_single. }
  exists path. split; [exact Lp|]. split; [exact ER|].
  unfold to_merkle_proof, conceal_other.
  rewrite (conceal_except_ok md b t [pid] HD Hx (pwf_loose_of _ _ _ Hw)).
  2: { intros p [<-|[]]. apply in_map_iff. exists (pid, msg). split; [reflexivity|exact HI]. }
  cbn [bind mb_cross_section mb_method mb_cofactor mb_depth]. rewrite ER, path_map_path. cbn [bind].
  rewrite combine_snd by (rewrite seq_length; reflexivity).
  rewrite combine_length, seq_length, Nat.min_id, Lp, Nat.eqb_refl.
  replace (debug_assert md true) with (Ret tt) by (destruct md; reflexivity). cbn [bind].
  replace (mb_depth b <=? 32) with true by (symmetry; apply Nat.leb_le; lia).
  reflexivity.
Qed.

(** The proof's block is the block concealed to this leaf, and it convolves to the commitment. *)
Theorem to_merkle_proof_back md b t pid msg pf :
  block_tree b t -> placed (mb_depth b) (mb_cofactor b) t -> In (pid, msg) (pleaves t) ->
  to_merkle_proof md b pid = Ret (Ok pf) ->
  (exists b', conceal_other md b pid = Ret (b', Ok tt) /\ block_with pf pid msg = Ret (Ok b')) /\
  convolve md pf pid msg = Ret (Ok (pcommit (mb_depth b) (mb_cofactor b) t)).
Proof.
  intros HB HP HI E. destruct (to_merkle_proof_ok md b t pid msg HB HP HI) as [path [Lp [ER E']]].
  rewrite E' in E. injection E as <-. destruct HB as [HD [Hc [Hx Hw]]].
  split.
  - exists (MBlock (mb_method b) (mb_depth b) (mb_cofactor b)
             (flatten 0 (prestrict (mem [pid]) (width_of (mb_depth b)) 0 t)) None). split.
    + unfold conceal_other. rewrite (conceal_except_ok md b t [pid] HD Hx (pwf_loose_of _ _ _ Hw)).
      * reflexivity.
      * intros p [<-|[]]. apply in_map_iff. exists (pid, msg). split; [reflexivity|exact HI].
    + rewrite block_with_spec by (cbn; lia). cbv zeta. cbn [mp_path mp_cofactor mp_pos mp_method].
      rewrite Lp, N.eqb_refl. unfold proof_tree. cbn. rewrite <- ER. reflexivity.
  - rewrite convolve_spec by (cbn; lia). cbv zeta. cbn [mp_path mp_cofactor mp_pos].
    rewrite Lp, N.eqb_refl. do 2 f_equal. unfold proof_tree, pcommit. cbn [mp_path mp_pos].
    rewrite <- ER. unfold width_of. rewrite prestrict_phash. reflexivity.
Qed.

End Path.
