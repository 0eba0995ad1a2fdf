(** Contents and locality of Merkle proofs. *)
From Verif Require Import Base BaseFacts OrdMap OrdMapFacts SpecHash HashFacts SpecTree SpecFull SpecLocal SpecCommit SpecValid
  MpcAtoms MpcTree MpcBlock TreeFacts ConcealProofs PathProofs MpcTreeProofs DerivedProofs.

Local Open Scope nat_scope.

Section WithHash.
Context {H : Hasher}.

Lemma full_tree_ext_in k o f g :
  (forall i, (o <= i < o + 2 ^ N.of_nat k)%N -> f i = g i) -> full_tree k o f = full_tree k o g.
Proof.
  revert o; induction k as [|k IH]; intros o E; cbn [full_tree].
  - apply E. change (2 ^ N.of_nat 0)%N with 1%N. lia.
  - rewrite Nat2N.inj_succ, N.pow_succ_r' in E. f_equal; apply IH; intros i L; apply E; lia.
Qed.

Lemma path_aside W path d o q p m f :
  pview W d (path_tree path q p m) (full_tree (length path) o f) ->
  path = aside W d (length path) o f (o + q).
Proof.
  revert d o q; induction path as [|h r IH]; intros d o q V; [reflexivity|].
  cbn [length path_tree full_tree aside] in *. set (half := (2 ^ N.of_nat (length r))%N) in *.
  destruct (half <=? q)%N eqn:E; cbn [pview] in V; destruct V as [V1 V2].
  - apply N.leb_le in E. replace (o + half <=? o + q)%N with true by (symmetry; apply N.leb_le; lia).
    f_equal; [exact V1|]. apply IH in V2. rewrite V2 at 1. f_equal. lia.
  - apply N.leb_gt in E. replace (o + half <=? o + q)%N with false by (symmetry; apply N.leb_gt; lia).
    f_equal; [exact V2|]. apply IH in V1. exact V1.
Qed.

Lemma proof_contents md t b pid msg :
  good_tree t -> (exists pt, view_block t b pt) -> In (pid, msg) (known_leaves (mb_cross_section b)) ->
  to_merkle_proof md b pid =
    Ret (Ok (MProof (mt_method t) (s_pos pid (mt_cofactor t) (mt_depth t)) (mt_cofactor t)
               (tree_aside t (s_pos pid (mt_cofactor t) (mt_depth t))))).
Proof.
  intros G [pt VB] I. pose proof (view_block_placed _ _ _ G VB) as PL.
  destruct VB as [BT [V [ED [EC EM]]]]. pose proof BT as [_ [_ [Hx _]]].
  rewrite Hx, known_leaves_flatten in I.
  destruct (to_merkle_proof_ok md b pt pid msg BT PL I) as [path [Lp [ER E]]].
  rewrite E, EM, EC, ED. destruct (pos_spec pid (mt_cofactor t) (mt_depth t) (gt_depth _ G)).
  do 2 f_equal. rewrite EC, ED in *.
  pose proof (prestrict_view (mem [pid]) (width_of (mt_depth t)) 0 pt) as V'. rewrite ER in V'.
  pose proof (pview_trans _ _ _ _ _ V' V) as V2. unfold tree_full in V2. rewrite <- Lp in V2 at 3.
  apply path_aside in V2. rewrite N.add_0_l in V2. unfold tree_aside.
  f_equal; [assumption|]. rewrite V2 at 1. rewrite Lp. unfold width_of. congruence.
Qed.

Lemma aside_length W d k o f pos : length (aside W d k o f pos) = k.
Proof.
  revert d o; induction k as [|k IH]; intros d o; [reflexivity|]. cbn [aside].
  destruct (_ <=? _)%N; cbn [length]; rewrite IH; reflexivity.
Qed.

(** The slot itself does not matter. *)
Lemma aside_own W d k o f g pos :
  (o <= pos < o + 2 ^ N.of_nat k)%N -> (forall i, i <> pos -> f i = g i) -> aside W d k o f pos = aside W d k o g pos.
Proof.
  intros L E. revert d o L; induction k as [|k IH]; intros d o L; [reflexivity|].
  rewrite Nat2N.inj_succ, N.pow_succ_r' in L. cbn [aside].
  destruct (_ <=? _)%N eqn:C; [apply N.leb_le in C|apply N.leb_gt in C]; f_equal.
  - f_equal. apply full_tree_ext_in. intros i Li. apply E. lia.
  - apply IH. lia.
  - f_equal. apply full_tree_ext_in. intros i Li. apply E. lia.
  - apply IH. lia.
Qed.

Lemma aside_same W d k o f g pos :
  (forall i, (o <= i < o + 2 ^ N.of_nat k)%N -> f i = g i) -> aside W d k o f pos = aside W d k o g pos.
Proof.
  revert d o; induction k as [|k IH]; intros d o E; [reflexivity|].
  rewrite Nat2N.inj_succ, N.pow_succ_r' in E. cbn [aside].
  destruct (_ <=? _)%N; f_equal.
  - f_equal. apply full_tree_ext_in. intros i Li. apply E. lia.
  - apply IH. intros i Li. apply E. lia.
  - f_equal. apply full_tree_ext_in. intros i Li. apply E. lia.
  - apply IH. intros i Li. apply E. lia.
Qed.

Lemma part_shift k a i j l :
  (a <= 1)%N -> part_at k i j l -> part_at (S k) (a * 2 ^ N.of_nat k + i) (a * 2 ^ N.of_nat k + j) (S l).
Proof.
  intros _ [L [E N]]. unfold part_at. replace (S k - S l) with (k - l) by lia.
  replace (S k - S (S l)) with (k - S l) by lia.
  assert (D : forall z e, e <= k -> ((a * 2 ^ N.of_nat k + z) / 2 ^ N.of_nat e =
              a * 2 ^ N.of_nat (k - e) + z / 2 ^ N.of_nat e)%N).
  { intros z e Le. replace (N.of_nat k) with (N.of_nat (k - e) + N.of_nat e)%N by lia.
    rewrite N.pow_add_r, N.mul_assoc. rewrite N.div_add_l by (apply N.pow_nonzero; discriminate). repeat f_equal; lia. }
  rewrite !D by lia. split; [lia|]. split; [congruence|]. lia.
Qed.

(** Another slot matters at exactly one level. *)
Lemma aside_other W d k o f g i j :
  (i < 2 ^ N.of_nat k)%N -> (j < 2 ^ N.of_nat k)%N -> i <> j -> (forall x, x <> (o + j)%N -> f x = g x) ->
  exists l o', part_at k i j l /\
    nth_error (aside W d k o f (o + i)) l = Some (phash W (S (d + l)) (full_tree (k - S l) o' f)) /\
    nth_error (aside W d k o g (o + i)) l = Some (phash W (S (d + l)) (full_tree (k - S l) o' g)) /\
    (o' <= o + j < o' + 2 ^ N.of_nat (k - S l))%N /\
    incl (ppre W (S (d + l)) (full_tree (k - S l) o' f)) (ppre W d (full_tree k o f)) /\
    incl (ppre W (S (d + l)) (full_tree (k - S l) o' g)) (ppre W d (full_tree k o g)) /\
    (forall l', l' <> l -> nth_error (aside W d k o f (o + i)) l' = nth_error (aside W d k o g (o + i)) l').
Proof.
  revert d o i j; induction k as [|k IH]; intros d o i j Li Lj Nij E.
  { change (2 ^ N.of_nat 0)%N with 1%N in *. lia. }
  assert (EW : (2 ^ N.of_nat (S k) = 2 * 2 ^ N.of_nat k)%N) by (rewrite Nat2N.inj_succ, N.pow_succ_r'; reflexivity).
  rewrite EW in Li, Lj. pose proof (N.pow_nonzero 2 (N.of_nat k)) as NZ.
  cbn [aside full_tree ppre]. set (w := (2 ^ N.of_nat k)%N) in *.
  destruct (N.lt_ge_cases i w) as [Ci|Ci]; destruct (N.lt_ge_cases j w) as [Cj|Cj].
  - replace (o + w <=? o + i)%N with false by (symmetry; apply N.leb_gt; lia).
    destruct (IH (S d) o i j Ci Cj Nij E) as [l [o' [P [A1 [A2 [B [I1 [I2 O]]]]]]]].
    exists (S l), o'. split; [apply (part_shift k 0); [lia|exact P]|]. cbn [nth_error].
    replace (S k - S (S l)) with (k - S l) by lia. replace (d + S l) with (S d + l) by lia.
    split; [exact A1|split; [exact A2|split; [exact B|split; [|split]]]].
    + intros x X. right. apply in_or_app. left. exact (I1 x X).
    + intros x X. right. apply in_or_app. left. exact (I2 x X).
    + intros [|l'] Nl; cbn [nth_error].
      * do 2 f_equal. apply full_tree_ext_in. intros x Lx. apply E. lia.
      * apply O. lia.
  - replace (o + w <=? o + i)%N with false by (symmetry; apply N.leb_gt; lia).
    exists 0, (o + w)%N. cbn [nth_error]. replace (S k - 1) with k by lia. rewrite Nat.add_0_r. fold w.
    split; [|split; [reflexivity|split; [reflexivity|split; [lia|split; [|split]]]]].
    + split; [lia|]. replace (S k - 0) with (S k) by lia. replace (S k - 1) with k by lia. rewrite EW. fold w.
      rewrite (N.div_small i (2 * w)), (N.div_small j (2 * w)), (N.div_small i w) by lia. split; [reflexivity|].
      replace j with (1 * w + (j - w))%N by lia. rewrite N.div_add_l by (apply NZ; discriminate). generalize ((j - w) / w)%N. intros; lia.
    + intros x X. right. apply in_or_app. right. exact X.
    + intros x X. right. apply in_or_app. right. exact X.
    + intros [|l'] Nl; [congruence|]. cbn [nth_error]. f_equal. apply aside_same. fold w. intros x Lx. apply E. lia.
  - replace (o + w <=? o + i)%N with true by (symmetry; apply N.leb_le; lia).
    exists 0, o. cbn [nth_error]. replace (S k - 1) with k by lia. rewrite Nat.add_0_r. fold w.
    split; [|split; [reflexivity|split; [reflexivity|split; [lia|split; [|split]]]]].
    + split; [lia|]. replace (S k - 0) with (S k) by lia. replace (S k - 1) with k by lia. rewrite EW. fold w.
      rewrite (N.div_small i (2 * w)), (N.div_small j (2 * w)), (N.div_small j w) by lia. split; [reflexivity|].
      replace i with (1 * w + (i - w))%N by lia. rewrite N.div_add_l by (apply NZ; discriminate). generalize ((i - w) / w)%N. intros; lia.
    + intros x X. right. apply in_or_app. left. exact X.
    + intros x X. right. apply in_or_app. left. exact X.
    + intros [|l'] Nl; [congruence|]. cbn [nth_error]. f_equal. apply aside_same. fold w. intros x Lx. apply E. lia.
  - replace (o + w <=? o + i)%N with true by (symmetry; apply N.leb_le; lia).
    destruct (IH (S d) (o + w)%N (i - w)%N (j - w)%N) as [l [o' [P [A1 [A2 [B [I1 [I2 O]]]]]]]]; [lia|lia|lia| |].
    { intros x Nx. apply E. lia. }
    replace (o + w + (i - w))%N with (o + i)%N in * by lia. replace (o + w + (j - w))%N with (o + j)%N in * by lia.
    exists (S l), o'. split.
    { apply (part_shift k 1) in P; [|lia]. fold w in P.
      replace (1 * w + (i - w))%N with i in P by lia. replace (1 * w + (j - w))%N with j in P by lia. exact P. }
    cbn [nth_error]. replace (S k - S (S l)) with (k - S l) by lia. replace (d + S l) with (S d + l) by lia.
    split; [exact A1|split; [exact A2|split; [exact B|split; [|split]]]].
    + intros x X. right. apply in_or_app. right. exact (I1 x X).
    + intros x X. right. apply in_or_app. right. exact (I2 x X).
    + intros [|l'] Nl; cbn [nth_error].
      * do 2 f_equal. apply full_tree_ext_in. fold w. intros x Lx. apply E. lia.
      * apply O. lia.
Qed.

(** The level is determined by the positions. *)
Lemma part_unique D i j l l' : part_at D i j l -> part_at D i j l' -> l = l'.
Proof.
  assert (M : forall l l', part_at D i j l -> part_at D i j l' -> l < l' -> False).
  { clear. intros l l' [L [E N]] [L' [E' N']] Lt.
    apply N. replace (D - S l) with ((D - l') + (l' - S l)) by lia.
    rewrite Nat2N.inj_add, N.pow_add_r, <- !N.div_div, E' by (apply N.pow_nonzero; discriminate). reflexivity. }
  intros P P'. destruct (lt_eq_lt_dec l l') as [[L|E]|L]; [|exact E|]; exfalso; eauto.
Qed.

End WithHash.

(** ** Sources which differ in one message *)
Lemma same_shape src src' rng rng' t t' :
  valid_source src -> valid_source src' -> ms_min_depth src = ms_min_depth src' ->
  map fst (ms_messages src) = map fst (ms_messages src') ->
  try_commit src rng = Ret (Ok t) -> try_commit src' rng' = Ret (Ok t') ->
  mt_depth t = mt_depth t' /\ mt_cofactor t = mt_cofactor t'.
Proof.
  intros V V' EM EI E E'.
  pose proof (try_commit_spec src rng (proj1 V) (proj1 (proj2 V))) as T.
  pose proof (try_commit_spec src' rng' (proj1 V') (proj1 (proj2 V'))) as T'.
  cbv zeta in T, T'. rewrite E in T. rewrite E' in T'.
  destruct T as [_ [_ [_ [_ [Al [F [_ First]]]]]]]. destruct T' as [_ [_ [_ [_ [Al' [F' [_ First']]]]]]].
  assert (LN : length (ms_messages src) = length (ms_messages src'))
    by (rewrite <- (map_length fst (ms_messages src)), EI; apply map_length).
  assert (FF : forall d c, fits (ms_messages src) d c <-> fits (ms_messages src') d c).
  { intros d c. unfold fits. rewrite <- !(map_map fst (fun p => s_pos p c d)), EI. tauto. }
  rewrite <- EM, <- LN in *.
  specialize (First _ _ Al' (proj2 (FF _ _) F')). specialize (First' _ _ Al (proj1 (FF _ _) F)).
  unfold not_after in *. cbn in *. lia.
Qed.

Lemma slots_same src src' t t' rng rng' q :
  valid_source src -> valid_source src' -> differ_at src src' q ->
  try_commit src rng = Ret (Ok t) -> try_commit src' rng' = Ret (Ok t') ->
  forall i, i <> s_pos q (mt_cofactor t) (mt_depth t) -> om_get N.ltb i (mt_map t) = om_get N.ltb i (mt_map t').
Proof.
  intros V V' [_ [EM [EI D]]] E E' i Ni.
  destruct (same_shape _ _ _ _ _ _ V V' EM EI E E') as [ED EC].
  pose proof (try_commit_good _ _ _ V E) as G. pose proof (try_commit_good _ _ _ V' E') as G'.
  pose proof (try_commit_spec src rng (proj1 V) (proj1 (proj2 V))) as T.
  pose proof (try_commit_spec src' rng' (proj1 V') (proj1 (proj2 V'))) as T'.
  cbv zeta in T, T'. rewrite E in T. rewrite E' in T'.
  destruct T as [_ [_ [_ [Ts _]]]]. destruct T' as [_ [_ [_ [Ts' _]]]].
  assert (A : forall p m, In (i, (p, m)) (mt_map t) <-> In (i, (p, m)) (mt_map t')).
  { intros p m. rewrite (gt_map _ G), (gt_map _ G'), Ts, Ts', <- ED, <- EC.
    split; intros [I ->]; (split; [|reflexivity]); apply D; try exact I; intros ->; apply Ni; reflexivity. }
  destruct (om_get N.ltb i (mt_map t)) as [[p m]|] eqn:Q.
  - apply (om_get_In N.ltb) in Q. apply A in Q. symmetry. apply (om_In_get N.ltb); [exact (gt_map_sorted _ G')|exact Q].
  - destruct (om_get N.ltb i (mt_map t')) as [[p m]|] eqn:Q'; [|reflexivity].
    apply (om_get_In N.ltb) in Q'. apply A in Q'. apply (om_In_get N.ltb) in Q'; [congruence|exact (gt_map_sorted _ G)].
Qed.
