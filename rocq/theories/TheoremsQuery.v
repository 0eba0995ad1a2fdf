(** C85: results depend on the hash function only at the listed strings. *)
From Verif Require Import Base BaseFacts OrdMap SpecHash HashFacts SpecTree SpecFull SpecMerkle SpecCommit SpecValid SpecEngine
  SpecQuery Engine Digest EngineProofs MerkleProofs MpcAtoms MpcTree MpcBlock Merkle TreeFacts BlockInv PathProofs MpcTreeProofs
  DerivedProofs TheoremsMpc TheoremsBlock TheoremsMerkle TheoremsMisc TheoremsMore.
Local Open Scope nat_scope.

Section Agree.
Context (H H' : Hasher).

Lemma agree_incl L L' : agree H H' L -> incl L' L -> agree H H' L'.
Proof. intros A I s Hs. apply A, I, Hs. Qed.

Context (tn : @HASH H' s_node_tag = @HASH H s_node_tag).

Lemma q_pre tag d : @HASH H' tag = @HASH H tag -> @s_pre H' tag d = @s_pre H tag d.
Proof. intros E. unfold s_pre. rewrite E. reflexivity. Qed.
Lemma q_leaf p m : @s_leaf H' p m = @s_leaf H p m.
Proof. apply q_pre, tn. Qed.
Lemma q_entropy p m : @s_entropy H' p m = @s_entropy H p m.
Proof. apply q_pre, tn. Qed.
Lemma q_branch d w a b : @s_branch H' d w a b = @s_branch H d w a b.
Proof. apply q_pre, tn. Qed.
Lemma q_single d w a : @s_single H' d w a = @s_single H d w a.
Proof. apply q_pre, tn. Qed.
Lemma q_void d w : @s_void H' d w = @s_void H d w.
Proof. apply q_pre, tn. Qed.

Lemma q_phash W t : forall d, agree H H' (@ppre H W d t) -> @phash H' W d t = @phash H W d t.
Proof.
  induction t as [h|p m|l IHl r IHr]; intros d A; cbn in *.
  - reflexivity.
  - rewrite q_leaf. apply A. left. reflexivity.
  - rewrite IHl, IHr, q_branch.
    + apply A. left. reflexivity.
    + intros s I. apply A. right. apply in_or_app. right. exact I.
    + intros s I. apply A. right. apply in_or_app. left. exact I.
Qed.
Lemma q_mthash W t : forall d, agree H H' (@mtpre H W d t) -> @mthash H' W d t = @mthash H W d t.
Proof.
  induction t as [|a|a b|l IHl r IHr]; intros d A; cbn in *.
  - rewrite q_void. apply A. left. reflexivity.
  - rewrite q_single. apply A. left. reflexivity.
  - rewrite q_branch. apply A. left. reflexivity.
  - rewrite IHl, IHr, q_branch.
    + apply A. left. reflexivity.
    + intros s I. apply A. right. apply in_or_app. right. exact I.
    + intros s I. apply A. right. apply in_or_app. left. exact I.
Qed.
End Agree.

Lemma q_pcommit H H' D c t : agree H H' (@pcommit_pre H D c t) -> @pcommit H' D c t = @pcommit H D c t.
Proof.
  intros A. assert (T1 : @HASH H' s_node_tag = @HASH H s_node_tag) by (apply A; left; reflexivity).
  assert (T2 : @HASH H' s_commit_tag = @HASH H s_commit_tag) by (apply A; right; left; reflexivity).
  unfold pcommit. rewrite (q_phash H H' T1).
  - unfold s_commit. rewrite (q_pre H H' _ _ T2). apply A. right; right; left; reflexivity.
  - intros s I. apply A. right; right; right. exact I.
Qed.

Lemma q_root H H' xs r L : @merkle_root_of H xs r -> @root_hashed H xs L -> agree H H' L -> @merkle_root_of H' xs r.
Proof.
  intros R RH A. destruct R as [a|xs t N S].
  - constructor.
  - inversion RH; subst; [cbn in N; lia|].
    assert (t = t0) as -> by (eapply splits_fun; eassumption). clear S.
    assert (T1 : @HASH H' s_node_tag = @HASH H s_node_tag) by (apply A; left; reflexivity).
    rewrite <- (q_mthash H H' T1).
    + constructor; assumption.
    + intros s I. apply A. right. exact I.
Qed.

(** ** C85 *)
Lemma c85_proof : forall (H H' : Hasher) md pf pid msg
  (same : agree H H' (@proof_pre H pf pid msg)), @convolve H' md pf pid msg = @convolve H md pf pid msg.
Proof.
  intros H H' md pf pid msg A. destruct (le_lt_dec (length (mp_path pf)) 31) as [L|L].
  - rewrite (@c03_convolve_total H' md pf pid msg L), (@c03_convolve_total H md pf pid msg L). cbv zeta.
    rewrite (q_pcommit H H' _ _ _ A). reflexivity.
  - rewrite !convolve_long by lia. reflexivity.
Qed.
Lemma c85_block : forall (H H' : Hasher) md b t (wf : block_tree b t)
  (same : agree H H' (@pcommit_pre H (mb_depth b) (mb_cofactor b) t)),
  @block_commit_id H' md b = @block_commit_id H md b.
Proof.
  intros H H' md b t W A. rewrite (@wf_commit H md b t W), (@wf_commit H' md b t W), (q_pcommit H H' _ _ _ A). reflexivity.
Qed.

Lemma full_tree_ext k : forall o f g, (forall i, (o <= i < o + 2 ^ N.of_nat k)%N -> f i = g i) -> full_tree k o f = full_tree k o g.
Proof.
  induction k as [|k IH]; intros o f g E; cbn [full_tree].
  - apply E. cbn. lia.
  - rewrite Nat2N.inj_succ, N.pow_succ_r' in E. f_equal; apply IH; intros i Hi; apply E; lia.
Qed.
Lemma N_from_in o n i : In i (N_from o n) <-> (o <= i < o + N.of_nat n)%N.
Proof.
  unfold N_from. rewrite in_map_iff. split.
  - intros (x & <- & I). apply in_seq in I. lia.
  - intros B. exists (N.to_nat (i - o)). split; [lia|]. apply in_seq. lia.
Qed.
Lemma c85_tree : forall (H H' : Hasher) md t (depth : mt_depth t <= 31) (same : agree H H' (@tree_pre H t)),
  @tree_commit_id H' md t = @tree_commit_id H md t.
Proof.
  intros H H' md t D A. rewrite (@tree_commit_any H md t D), (@tree_commit_any H' md t D). f_equal.
  assert (T1 : @HASH H' s_node_tag = @HASH H s_node_tag) by (apply A; left; reflexivity).
  replace (@tree_full H' t) with (@tree_full H t).
  - apply q_pcommit. intros s I. apply A. apply in_or_app. left. exact I.
  - unfold tree_full. apply full_tree_ext. intros i B. unfold slot.
    destruct (om_get N.ltb i (mt_map t)) as [[p m]|] eqn:G; [reflexivity|]. f_equal.
    rewrite (q_entropy H H' T1). symmetry. apply A. apply in_or_app. right. unfold entropy_pre. apply in_flat_map.
    exists i. split; [|rewrite G; left; reflexivity]. apply N_from_in. rewrite Nat2N.inj_pow. exact B.
Qed.
Lemma c85_merklize : forall (H H' : Hasher) xs L (hashed : @root_hashed H xs L) (same : agree H H' L),
  @merklize H' xs = @merklize H xs.
Proof.
  intros H H' xs L RH A. destruct (N.lt_ge_cases (N.of_nat (length xs)) (2 ^ 32)) as [B|B].
  - destruct (@c22_total H xs B) as [r E]. rewrite E. apply (@c23_balanced H' xs r B).
    apply (q_root H H' xs r L); [|exact RH|exact A]. apply (@c23_balanced H xs r B). exact E.
  - rewrite !merklize_too_many by exact B. reflexivity.
Qed.

Lemma q_feeds H H' fs : forall bss L, Forall2 (@feeds H) fs bss -> @fields_hashed H fs L -> agree H H' L ->
  Forall2 (@feeds H') fs bss.
Proof.
  induction fs as [|f fs IH]; intros bss L F FH A; inversion F; subst; constructor.
  - destruct f; try exact H2. destruct H2 as (r & R & ->). inversion FH; subst.
    + exists r. split; [|reflexivity]. apply (q_root H H' _ r L0 R); [assumption|].
      intros s I. apply A, in_or_app. left. exact I.
    + exfalso. match goal with X : forall t ls, _ <> _ |- _ => eapply X end. reflexivity.
  - inversion FH; subst; eapply IH; try eassumption. intros s I. apply A, in_or_app. right. exact I.
Qed.
Lemma c85_engine : forall (H H' : Hasher) md md' tag fs e e' bss L
  (fed : @run H md fs (@engine_new H tag) = Ret e) (fed' : @run H' md' fs (@engine_new H' tag) = Ret e')
  (bytes : Forall2 (@feeds H) fs bss) (hashed : @fields_hashed H fs L)
  (same : agree H H' (tag :: @s_pre H tag (concat bss) :: L)),
  @digest_finish H' (engine_finish e') = @digest_finish H (engine_finish e).
Proof.
  intros H H' md md' tag fs e e' bss L R R' F FH A.
  rewrite (@c34_digest H md tag fs e bss R F).
  rewrite (@c34_digest H' md' tag fs e' bss R').
  - rewrite (q_pre H H'); [|apply A; left; reflexivity]. apply A. right; left; reflexivity.
  - apply (q_feeds H H' fs bss L F FH). intros s I. apply A. right; right; exact I.
Qed.

(** Numbers of strings *)
Lemma path_count {H : Hasher} W p m path : forall d pos, length (ppre W d (path_tree path pos p m)) = S (length path).
Proof.
  induction path as [|h path IH]; intros d pos; cbn [path_tree].
  - reflexivity.
  - destruct (_ <=? pos)%N; cbn [ppre length]; rewrite app_length, IH; cbn; lia.
Qed.
Lemma N_from_app o a b : N_from o (a + b) = N_from o a ++ N_from (o + N.of_nat a) b.
Proof.
  unfold N_from. rewrite seq_app, map_app. f_equal. cbn. clear.
  rewrite <- (Nat.add_0_r a) at 1. generalize 0 as k. induction b as [|b IH]; intros k; cbn; [reflexivity|].
  f_equal; [lia|]. rewrite <- Nat.add_succ_r. apply IH.
Qed.
Lemma full_count {H : Hasher} W t k : forall d o,
  length (ppre W d (full_tree k o (slot t))) +
  length (flat_map (fun pos => match om_get N.ltb pos (mt_map t) with
                               | Some _ => [] | None => [s_entropy (mt_entropy t) pos] end) (N_from o (2 ^ k))) + 1 = 2 * 2 ^ k.
Proof.
  induction k as [|k IH]; intros d o.
  - cbn. unfold slot. rewrite N.add_0_r. destruct (om_get N.ltb o (mt_map t)) as [[p m]|]; reflexivity.
  - cbn [full_tree ppre]. replace (2 ^ S k) with (2 ^ k + 2 ^ k) by (cbn; lia). rewrite N_from_app, flat_map_app. cbn [length]. rewrite !app_length.
    pose proof (IH (S d) o) as A. pose proof (IH (S d) (o + 2 ^ N.of_nat k)%N) as B.
    rewrite Nat2N.inj_pow in *. change (N.of_nat 2) with 2%N in *. lia.
Qed.
Lemma mt_count {H : Hasher} W xs t : splits xs t -> forall d, xs <> [] -> length (mtpre W d t) < 2 * length xs.
Proof.
  induction 1 as [|a|a b|xs ys l r B E S1 IH1 S2 IH2]; intros d N; cbn [mtpre length]; try lia; try congruence.
  rewrite app_length in *. rewrite !app_length.
  assert (xs <> []) by (intros ->; cbn in *; lia). assert (ys <> []) by (intros ->; cbn in *; lia).
  specialize (IH1 (S d) ltac:(assumption)). specialize (IH2 (S d) ltac:(assumption)). lia.
Qed.
Lemma c85_count : forall (H : Hasher),
  (forall pf pid msg, length (proof_pre pf pid msg) = length (mp_path pf) + 4) /\
  (forall t, length (tree_pre t) = 2 * 2 ^ mt_depth t + 2) /\
  (forall xs L, root_hashed xs L -> length L <= 2 * length xs \/ xs = []).
Proof.
  intros H. split; [|split].
  - intros pf pid msg. unfold proof_pre, pcommit_pre. cbn [app length]. rewrite path_count. lia.
  - intros t. unfold tree_pre, pcommit_pre, entropy_pre. rewrite app_length. cbn [app length].
    pose proof (full_count (2 ^ N.of_nat (mt_depth t)) t (mt_depth t) 0 0) as E. unfold tree_full. lia.
  - intros xs L R. destruct R as [a|xs t N S]; [left; cbn; lia|].
    destruct xs as [|x xs]; [right; reflexivity|left].
    pose proof (mt_count (N.of_nat (length (x :: xs))) _ _ S 0 ltac:(discriminate)). cbn [length] in *. lia.
Qed.

(** Every listed string matters *)
Section Needed.
Context (H : Hasher) (D : nat) (c : N) (path : list bytes32) (pos : N) (p m : bytes32).
Let W := (2 ^ N.of_nat D)%N.
Let L := @pcommit_pre H D c (path_tree path pos p m).
Let V := path ++ map (@HASH H) L.

Definition listed (s : list byte) : Prop :=
  s = s_node_tag \/ s = s_commit_tag \/ (exists r, s = @s_commit H D c r /\ In r V) \/ s = @s_leaf H p m \/
  (exists d a b, s = @s_branch H d W a b /\ In a V /\ In b V).
Definition other_hash (x : list byte) (y : bytes32) : Hasher := fun s =>
  if bytes_eq_dec s x then y else if in_dec bytes_eq_dec s L then @HASH H s else y.

Lemma needed_value s : In s L -> In (@HASH H s) V.
Proof. intros I. apply in_or_app. right. apply in_map. exact I. Qed.
Lemma needed_root pa : forall d po, incl (@ppre H W d (path_tree pa po p m)) L -> In (@phash H W d (path_tree pa po p m)) V.
Proof.
  destruct pa as [|h pa]; intros d po I; cbn [path_tree] in *.
  - apply needed_value, I. left. reflexivity.
  - destruct (_ <=? po)%N; apply needed_value, I; left; reflexivity.
Qed.
Lemma needed_ppre pa : forall d po, incl pa path -> incl (@ppre H W d (path_tree pa po p m)) L ->
  forall s, In s (@ppre H W d (path_tree pa po p m)) -> listed s.
Proof.
  induction pa as [|h pa IH]; intros d po Ip I s Is; cbn [path_tree] in *.
  - destruct Is as [<-|[]]. right; right; right; left. reflexivity.
  - assert (Hh : In h V) by (apply in_or_app; left; apply Ip; left; reflexivity).
    assert (Ip' : incl pa path) by (intros z Hz; apply Ip; right; exact Hz).
    destruct (_ <=? po)%N; cbn [ppre app] in *.
    + assert (I' : incl (@ppre H W (S d) (path_tree pa (po - 2 ^ N.of_nat (length pa)) p m)) L)
        by (intros z Hz; apply I; right; exact Hz).
      destruct Is as [<-|Is]; [|eapply IH; eassumption].
      right; right; right; right. eexists _, _, _. split; [reflexivity|]. split; [exact Hh|apply needed_root; exact I'].
    + assert (I' : incl (@ppre H W (S d) (path_tree pa po p m)) L)
        by (intros z Hz; apply I; right; apply in_or_app; left; exact Hz).
      rewrite app_nil_r in *. destruct Is as [<-|Is]; [|eapply IH; eassumption].
      right; right; right; right. eexists _, _, _. split; [reflexivity|]. split; [apply needed_root; exact I'|exact Hh].
Qed.
Lemma tree_in_L : incl (@ppre H W 0 (path_tree path pos p m)) L.
Proof. intros s I. right; right; right. exact I. Qed.
Lemma needed_listed s : In s L -> listed s.
Proof.
  intros [<-|[<-|[<-|I]]].
  - left. reflexivity.
  - right; left. reflexivity.
  - right; right; left. eexists. split; [reflexivity|]. apply needed_root, tree_in_L.
  - eapply needed_ppre; [apply incl_refl|apply tree_in_L|exact I].
Qed.

Lemma len_pre K tag d : length (@s_pre K tag d) = 64 + length d.
Proof. unfold s_pre. rewrite !app_length, !b32_length. lia. Qed.
Lemma len_commit K d k r : length (@s_commit K d k r) = 99.
Proof. unfold s_commit. rewrite len_pre. cbn [length]. rewrite app_length, le_length, b32_length. reflexivity. Qed.
Lemma len_leaf K a b : length (@s_leaf K a b) = 129.
Proof. unfold s_leaf. rewrite len_pre. cbn [length]. rewrite app_length, !b32_length. reflexivity. Qed.
Lemma len_branch K d w a b : length (@s_branch K d w a b) = 162.
Proof. unfold s_branch. rewrite len_pre. cbn [length]. rewrite !app_length, !b32_length, le_length. reflexivity. Qed.
Lemma pre_head K K' tag tag' d d' : @s_pre K tag d = @s_pre K' tag' d' -> @HASH K tag = @HASH K' tag'.
Proof.
  unfold s_pre. intros E. apply app_inv_length in E as [E _]; [|rewrite !b32_length; reflexivity]. apply b32_inj. exact E.
Qed.
Lemma V_node : In (@HASH H s_node_tag) V.
Proof. apply needed_value. left. reflexivity. Qed.
Lemma V_commit : In (@HASH H s_commit_tag) V.
Proof. apply needed_value. right; left. reflexivity. Qed.

Lemma not_listed_tag K tag d y : ~ In y V -> @HASH K tag = y -> ~ listed (@s_pre K tag d).
Proof.
  intros N E [A|[A|[[r [A _]]|[A|[d' [a [b [A _]]]]]]]].
  - apply (f_equal (@length byte)) in A. rewrite len_pre in A. cbn in A. lia.
  - apply (f_equal (@length byte)) in A. rewrite len_pre in A. cbn in A. lia.
  - apply pre_head in A. apply N. rewrite <- E, A. exact V_commit.
  - apply pre_head in A. apply N. rewrite <- E, A. exact V_node.
  - apply pre_head in A. apply N. rewrite <- E, A. exact V_node.
Qed.
Lemma not_listed_branch d a b : (~ In a V \/ ~ In b V) -> ~ listed (@s_branch H d W a b).
Proof.
  intros N [A|[A|[[r [A _]]|[A|[d' [a' [b' [A [Ha Hb]]]]]]]]].
  1-4: apply (f_equal (@length byte)) in A; rewrite len_branch, ?len_commit, ?len_leaf in A; discriminate A.
  unfold s_branch in A. apply s_pre_inj in A. apply cons_inv in A as [_ A]. apply cons_inv in A as [_ A].
  apply app_inv_head in A. apply app_inv_length in A as [A1 A2]; [|rewrite !b32_length; reflexivity].
  apply b32_inj in A1. apply b32_inj in A2. subst a' b'. destruct N as [N|N]; apply N; assumption.
Qed.
Lemma not_listed_commit r : ~ In r V -> ~ listed (@s_commit H D c r).
Proof.
  intros N [A|[A|[[r' [A Hr]]|[A|[d' [a' [b' [A [Ha Hb]]]]]]]]].
  1-2,4-5: apply (f_equal (@length byte)) in A; rewrite len_commit, ?len_branch, ?len_leaf in A; discriminate A.
  unfold s_commit in A. apply s_pre_inj in A. apply cons_inv in A as [_ A]. apply app_inv_head in A.
  apply b32_inj in A. subst r'. apply N. exact Hr.
Qed.

Context (x : list byte) (y : bytes32) (Hx : In x L) (Hy : ~ In y V).
Let K := other_hash x y.
Lemma K_x : @HASH K x = y.
Proof. unfold HASH, K, other_hash. destruct (bytes_eq_dec x x); congruence. Qed.
Lemma K_out s : ~ listed s -> @HASH K s = y.
Proof.
  intros N. unfold HASH, K, other_hash. destruct (bytes_eq_dec s x); [reflexivity|].
  destruct (in_dec bytes_eq_dec s L) as [I|]; [|reflexivity]. exfalso. apply N, needed_listed, I.
Qed.
Lemma K_in s : In s L -> s <> x -> @HASH K s = @HASH H s.
Proof.
  intros I N. unfold HASH at 1, K, other_hash. destruct (bytes_eq_dec s x); [congruence|].
  destruct (in_dec bytes_eq_dec s L); [reflexivity|congruence].
Qed.

Lemma changed_tag pa d po : x = s_node_tag -> @phash K W d (path_tree pa po p m) = y.
Proof.
  intros E. assert (T : @HASH K s_node_tag = y) by (rewrite <- E; apply K_x).
  destruct pa as [|h pa]; cbn [path_tree].
  - cbn [phash]. apply K_out. unfold s_leaf. apply (not_listed_tag K _ _ y Hy T).
  - destruct (_ <=? po)%N; cbn [phash]; apply K_out; unfold s_branch; apply (not_listed_tag K _ _ y Hy T).
Qed.
Lemma changed_tree pa : x <> s_node_tag -> forall d po, incl (@ppre H W d (path_tree pa po p m)) L ->
  In x (@ppre H W d (path_tree pa po p m)) -> @phash K W d (path_tree pa po p m) = y.
Proof.
  intros E. assert (T : @HASH K s_node_tag = @HASH H s_node_tag) by (apply K_in; [left; reflexivity|congruence]).
  assert (Sm : forall d t, incl (@ppre H W d t) L -> ~ In x (@ppre H W d t) -> @phash K W d t = @phash H W d t).
  { intros d t I N. apply (q_phash H K T). intros s Is. apply K_in; [apply I, Is|]. intros ->. exact (N Is). }
  induction pa as [|h pa IH]; intros d po I Ix; cbn [path_tree] in *.
  - destruct Ix as [Ex|[]]. cbn [phash]. rewrite (q_leaf H K T), Ex. apply K_x.
  - destruct (_ <=? po)%N; cbn [phash ppre app] in *; rewrite ?app_nil_r in *; rewrite (q_branch H K T).
    + set (u := path_tree pa (po - 2 ^ N.of_nat (length pa)) p m) in *.
      assert (I' : incl (@ppre H W (S d) u) L) by (intros z Hz; apply I; right; exact Hz).
      destruct (in_dec bytes_eq_dec x (@ppre H W (S d) u)) as [Y|N].
      * unfold u. rewrite (IH _ _ I' Y). apply K_out, not_listed_branch. right. exact Hy.
      * destruct Ix as [Ex|Ix]; [|contradiction]. rewrite (Sm _ _ I' N), Ex. apply K_x.
    + set (u := path_tree pa po p m) in *.
      assert (I' : incl (@ppre H W (S d) u) L) by (intros z Hz; apply I; right; exact Hz).
      destruct (in_dec bytes_eq_dec x (@ppre H W (S d) u)) as [Y|N].
      * unfold u. rewrite (IH _ _ I' Y). apply K_out, not_listed_branch. left. exact Hy.
      * destruct Ix as [Ex|Ix]; [|contradiction]. rewrite (Sm _ _ I' N), Ex. apply K_x.
Qed.
Lemma changed_commit : @pcommit K D c (path_tree path pos p m) = y.
Proof.
  unfold pcommit. fold W. set (u := path_tree path pos p m).
  destruct (bytes_eq_dec x s_commit_tag) as [E2|N2].
  - apply K_out. unfold s_commit. apply (not_listed_tag K _ _ y Hy). rewrite <- E2. apply K_x.
  - assert (T2 : @HASH K s_commit_tag = @HASH H s_commit_tag) by (apply K_in; [right; left; reflexivity|congruence]).
    unfold s_commit. rewrite (q_pre H K _ _ T2).
    assert (B : @phash K W 0 u = y -> @HASH K (@s_commit H D c (@phash K W 0 u)) = y)
      by (intros ->; apply K_out, not_listed_commit, Hy). unfold s_commit in B.
    destruct (bytes_eq_dec x s_node_tag) as [E1|N1]; [apply B, changed_tag, E1|].
    destruct (in_dec bytes_eq_dec x (@ppre H W 0 u)) as [Y|N]; [apply B, changed_tree; [exact N1|apply tree_in_L|exact Y]|].
    destruct Hx as [E|[E|[E|I]]]; try congruence; [|exfalso; apply N; exact I].
    rewrite (q_phash H K).
    + fold W in E. change (@HASH K (@s_commit H D c (@phash H W 0 u)) = y). unfold u. rewrite E. apply K_x.
    + apply K_in; [left; reflexivity|congruence].
    + intros s Is. apply K_in; [apply tree_in_L; exact Is|]. intros ->. exact (N Is).
Qed.
End Needed.

Definition fills : list bytes32 := map (fun n => b32_fill (byte_of_N (N.of_nat n))) (seq 0 256).
Lemma fills_nodup : NoDup fills.
Proof.
  apply (NoDup_map_inv (fun z => Byte.to_N (hd x00 (b32 z)))).
  assert (E : map (fun z => Byte.to_N (hd x00 (b32 z))) fills = map N.of_nat (seq 0 256)) by (vm_compute; reflexivity).
  rewrite E. apply FinFun.Injective_map_NoDup; [intros a b; apply Nat2N.inj|apply seq_NoDup].
Qed.
Lemma fresh_value (V : list bytes32) : length V < 256 -> exists y, ~ In y V.
Proof.
  intros B. destruct (Exists_dec (fun z => ~ In z V) fills) as [E|N].
  - intros z. destruct (in_dec b32_eq_dec z V); [right|left]; tauto.
  - apply Exists_exists in E as (z & _ & E). exists z. exact E.
  - exfalso. assert (I : incl fills V).
    { intros z Hz. destruct (in_dec b32_eq_dec z V) as [Y|Y]; [exact Y|]. exfalso. apply N, Exists_exists. exists z. tauto. }
    pose proof (NoDup_incl_length fills_nodup I) as X. unfold fills in X. rewrite map_length, seq_length in X. lia.
Qed.

Lemma c85_needed : forall (H : Hasher) md pf pid msg c x
  (ok : @convolve H md pf pid msg = Ret (Ok c)) (listed : In x (@proof_pre H pf pid msg)),
  exists H', (forall s, In s (@proof_pre H pf pid msg) -> s <> x -> @HASH H' s = @HASH H s) /\
    exists c', @convolve H' md pf pid msg = Ret (Ok c') /\ c' <> c.
Proof.
  intros H md pf pid msg c x E Hx.
  destruct (le_lt_dec (length (mp_path pf)) 31) as [B|B]; [|rewrite convolve_long in E by lia; discriminate].
  pose proof (@c03_convolve_total H md pf pid msg B) as T. cbv zeta in T. rewrite T in E. clear T.
  destruct (fresh_value (mp_path pf ++ map (@HASH H) (@proof_pre H pf pid msg))) as [y Hy].
  { rewrite app_length, map_length. destruct (c85_count H) as [-> _]. lia. }
  exists (other_hash H (length (mp_path pf)) (mp_cofactor pf) (mp_path pf) (mp_pos pf) pid msg x y). split.
  - intros s Is Ns. apply K_in; assumption.
  - rewrite c03_convolve_total by exact B. cbv zeta. destruct (N.eqb _ _); [|discriminate].
    eexists. split; [reflexivity|]. rewrite changed_commit by assumption.
    injection E as E. intros ->. apply Hy, in_or_app. right. rewrite <- E. unfold pcommit.
    apply in_map. right; right; left. reflexivity.
Qed.
