(** Properties of merklization and of hashed strings (restated in PropMerkle.v). *)
From Verif Require Import Base BaseFacts Strict Merkle MpcAtoms MpcTree MpcBlock.
From Verif Require Import SpecHash SpecTree SpecMerkle SpecBuoy SpecStrings SpecValid SpecCodec.
From Verif Require Import HashFacts TreeFacts MergeProofs MerkleProofs StrictProofs CodecProofs LevelProofs.
Local Open Scope nat_scope.

(** ** C22, C23 *)
Lemma c22_total : forall (H : Hasher) nodes (bound : (N.of_nat (length nodes) < 2 ^ 32)%N),
  exists r, merklize nodes = Ret r.
Proof. intros H nodes L. destruct (merklize_spec nodes L) as [r [E _]]. eauto. Qed.
Lemma c22_limit : forall (H : Hasher) nodes,
  (exists r, merklize nodes = Ret r) <-> (N.of_nat (length nodes) < 2 ^ 32)%N.
Proof.
  intros H nodes. split; [|apply c22_total]. intros [r E].
  destruct (N.of_nat (length nodes) <? 2 ^ 32)%N eqn:L; [apply N.ltb_lt; exact L|].
  apply N.ltb_ge in L. rewrite merklize_too_many in E by exact L. discriminate.
Qed.
Lemma c23_balanced : forall (H : Hasher) nodes r,
  (N.of_nat (length nodes) < 2 ^ 32)%N ->
  merklize nodes = Ret r <-> merkle_root_of nodes r.
Proof.
  intros H nodes r L. destruct (merklize_spec nodes L) as [r' [E R]]. rewrite E. split.
  - intros Q. injection Q as <-. exact R.
  - intros R'. f_equal. exact (root_fun _ _ _ R R').
Qed.
Lemma c23_perfect : forall (H : Hasher) k f (small : k <= 31),
  merklize (map (fun i => f (N.of_nat i)) (seq 0 (2 ^ k))) = Ret (perfect (2 ^ N.of_nat k) 0 k 0 f).
Proof.
  intros H k f L. rewrite <- (merklize_perfect k f L). f_equal.
  unfold N_range. rewrite map_map, pow_to_nat. reflexivity.
Qed.

(** ** C24 *)
Lemma c24_binding : forall (H : Hasher) xs ys r L L'
  (root1 : merklize xs = Ret r) (root2 : merklize ys = Ret r)
  (hashed1 : root_hashed xs L) (hashed2 : root_hashed ys L')
  (not_one : length xs = 1 <-> length ys = 1),
  xs = ys \/ collision_in (L ++ L').
Proof.
  intros H xs ys r L L' R1 R2 H1 H2 N.
  assert (B1 : (N.of_nat (length xs) < 2 ^ 32)%N) by (apply (c22_limit H); eauto).
  assert (B2 : (N.of_nat (length ys) < 2 ^ 32)%N) by (apply (c22_limit H); eauto).
  apply (c23_balanced H _ _ B1) in R1. apply (c23_balanced H _ _ B2) in R2.
  exact (merklize_binding xs ys r L L' B1 B2 R1 R2 H1 H2 N).
Qed.
Lemma leaf_ids_inj {H : Hasher} ls ls' : Forall valid_leaf ls -> Forall valid_leaf ls' ->
  map leaf_commit_id ls = map leaf_commit_id ls' ->
  ls = ls' \/ collision_in (map leaf_string ls ++ map leaf_string ls').
Proof.
  intros F. revert ls'. induction F as [|l ls V F IH]; intros [|l' ls'] F' E; try discriminate; [left; reflexivity|].
  inversion F' as [|? ? V' F'']; subst. cbn [map] in E. injection E as E1 E2.
  destruct (IH _ F'' E2) as [->|Co].
  - assert (X : leaf_string l = leaf_string l' \/ collision_in [leaf_string l; leaf_string l']).
    { apply coll; [left; reflexivity|right; left; reflexivity|]. destruct l, l'; exact E1. }
    destruct X as [X|X].
    + left. f_equal. destruct l as [p m|e i], l' as [p' m'|e' i']; cbn in X.
      * apply s_leaf_inj in X as [-> ->]. reflexivity.
      * destruct (s_leaf_entropy _ _ _ _ X).
      * destruct (s_leaf_entropy _ _ _ _ (eq_sym X)).
      * cbn in V, V'. apply s_entropy_inj in X as [-> ->]; try tauto.
    + right. apply (coll_incl [leaf_string l; leaf_string l']); [|exact X].
      intros x [<-|[<-|[]]]; cbn; [left; reflexivity|right; apply in_or_app; right; left; reflexivity].
  - right. apply (coll_incl (map leaf_string ls ++ map leaf_string ls')); [|exact Co].
    intros x I. apply in_app_or in I as [I|I]; cbn; right; apply in_or_app; [left|right; right]; exact I.
Qed.
Lemma leaf_string_branch {H : Hasher} l d W a b : leaf_string l <> s_branch d W a b.
Proof. destruct l; [apply s_leaf_branch|apply s_entropy_branch]. Qed.
Lemma leaf_string_void {H : Hasher} l d W : leaf_string l <> s_void d W.
Proof. destruct l; intros E; apply s_pre_inj in E; discriminate. Qed.
Lemma one_or_many {H : Hasher} l ys r L : length ys <> 1 -> merkle_root_of [leaf_commit_id l] r ->
  merkle_root_of ys r -> root_hashed ys L -> collision_in (leaf_string l :: L).
Proof.
  intros N R1 R2 H2.
  assert (E1 : r = HASH (leaf_string l)).
  { apply (root_fun [leaf_commit_id l]); [exact R1|]. destruct l; exact (root_single _). }
  destruct R2 as [a|ys t _ S]; [cbn in N; congruence|].
  destruct H2 as [a|ys t' _ S']; [cbn in N; congruence|]. rewrite (splits_fun _ _ S' _ S).
  destruct (mthash_top (N.of_nat (length ys)) 0 ys t S N) as [[_ ->]|[a [b [E I]]]].
  - exists (leaf_string l), (s_void 0 (N.of_nat (length ys))). split; [left; reflexivity|].
    split; [right; right; left; reflexivity|]. split; [apply leaf_string_void|]. symmetry. exact E1.
  - exists (leaf_string l), (s_branch 0 (N.of_nat (length ys)) a b). split; [left; reflexivity|].
    split; [right; right; exact I|]. split; [apply leaf_string_branch|]. congruence.
Qed.
Lemma c24_mpc_leaves : forall (H : Hasher) ls ls' r L L'
  (valid1 : Forall valid_leaf ls) (valid2 : Forall valid_leaf ls')
  (root1 : merklize (map leaf_commit_id ls) = Ret r) (root2 : merklize (map leaf_commit_id ls') = Ret r)
  (hashed1 : root_hashed (map leaf_commit_id ls) L) (hashed2 : root_hashed (map leaf_commit_id ls') L'),
  ls = ls' \/ collision_in (map leaf_string ls ++ map leaf_string ls' ++ L ++ L').
Proof.
  intros H ls ls' r L L' V1 V2 R1 R2 H1 H2.
  assert (B1 : (N.of_nat (length (map leaf_commit_id ls)) < 2 ^ 32)%N) by (apply (c22_limit H); eauto).
  assert (B2 : (N.of_nat (length (map leaf_commit_id ls')) < 2 ^ 32)%N) by (apply (c22_limit H); eauto).
  destruct (Nat.eq_dec (length ls) 1) as [N1|N1], (Nat.eq_dec (length ls') 1) as [N2|N2].
  1,4: destruct (c24_binding H _ _ r L L' R1 R2 H1 H2) as [E|Co];
    [rewrite !map_length; tauto| |right; apply coll_app_r, coll_app_r; exact Co].
  1,2: destruct (leaf_ids_inj ls ls' V1 V2 E) as [->|Co]; [left; reflexivity|right];
    rewrite app_assoc; apply coll_app_l; exact Co.
  - apply (c23_balanced H _ _ B1) in R1. apply (c23_balanced H _ _ B2) in R2. right.
    destruct ls as [|l [|? ?]]; try discriminate N1. cbn [map] in R1.
    refine (coll_incl _ _ _ (one_or_many l _ r L' _ R1 R2 H2)); [|rewrite map_length; exact N2].
    intros x [<-|I]; [left; reflexivity|]. apply in_or_app. right. apply in_or_app. right. apply in_or_app. right. exact I.
  - apply (c23_balanced H _ _ B1) in R1. apply (c23_balanced H _ _ B2) in R2. right.
    destruct ls' as [|l [|? ?]]; try discriminate N2. cbn [map] in R2.
    refine (coll_incl _ _ _ (one_or_many l _ r L _ R2 R1 H1)); [|rewrite map_length; exact N1].
    intros x [<-|I]; apply in_or_app; right; [left; reflexivity|]. apply in_or_app. right. apply in_or_app. left. exact I.
Qed.

(** ** C25 *)
Lemma c25_strings : forall (H : Hasher),
  (forall l, leaf_commit_id l = HASH (leaf_string l)) /\
  (forall n, node_commit_id n = HASH (node_string n)) /\
  (forall c, concealed_commit_id c = HASH (concealed_string c)).
Proof.
  intros H. split; [|split].
  - intros []; reflexivity.
  - intros [[] d w a b]; reflexivity.
  - intros [d c r]. reflexivity.
Qed.
Lemma c25_leaf_not_node : forall (H : Hasher) l n, leaf_string l <> node_string n.
Proof. intros H [p m|e i] [[] d w a b] E; apply s_pre_inj in E; discriminate. Qed.
Lemma c25_leaf_kinds : forall (H : Hasher) p m e i, leaf_string (Inhabited p m) <> leaf_string (Entropy e i).
Proof. intros H p m e i. apply s_leaf_entropy. Qed.
Lemma c25_injective : forall (H : Hasher),
  (forall l l', valid_leaf l -> valid_leaf l' -> leaf_string l = leaf_string l' -> l = l') /\
  (forall n n', valid_node n -> valid_node n' -> node_string n = node_string n' -> n = n') /\
  (forall c c', valid_concealed c -> valid_concealed c' -> concealed_string c = concealed_string c' -> c = c').
Proof.
  intros H. split; [|split].
  - intros [p m|e i] [p' m'|e' i'] V V' X; cbn in X.
    + apply s_leaf_inj in X as [-> ->]. reflexivity.
    + destruct (s_leaf_entropy _ _ _ _ X).
    + destruct (s_leaf_entropy _ _ _ _ (eq_sym X)).
    + cbn in V, V'. apply s_entropy_inj in X as [-> ->]; try tauto.
  - intros n n' V V' X. apply (lawful_enc_inj c_merkle_node valid_node); [exact c_merkle_node_lawful|exact V|exact V'|].
    destruct n as [[] d w a b], n' as [[] d' w' a' b']; apply s_pre_inj in X; exact X.
  - intros [d c r] [d' c' r'] [V1 V2] [V1' V2'] X. cbn [mc_depth mc_cofactor] in *. unfold concealed_string in X. cbn [mc_depth mc_cofactor mc_merkle_root] in X.
    apply s_commit_inj in X as [E1 [E2 E3]]; [subst; reflexivity|lia|lia|exact V2|exact V2'].
Qed.
Lemma c25_tags : forall (H : Hasher) tag1 tag2 data1 data2,
  tag1 <> tag2 ->
  tagged tag1 data1 = HASH (s_pre tag1 data1) /\
  (s_pre tag1 data1 = s_pre tag2 data2 -> collision_in [tag1; tag2]) /\
  (tagged tag1 data1 = tagged tag2 data2 ->
     collision_in [tag1; tag2; s_pre tag1 data1; s_pre tag2 data2]).
Proof.
  intros H t1 t2 d1 d2 N. split; [reflexivity|].
  assert (X : s_pre t1 d1 = s_pre t2 d2 -> collision_in [t1; t2]).
  { intros E. apply s_pre_tags in E as [E _]. exists t1, t2. cbn. auto. }
  split; [exact X|]. intros E.
  destruct (coll [s_pre t1 d1; s_pre t2 d2] (s_pre t1 d1) (s_pre t2 d2)) as [E'|Co]; [left; reflexivity|right; left; reflexivity|exact E| |].
  - apply (coll_incl [t1; t2]); [|apply X; exact E']. intros x [<-|[<-|[]]]; cbn; auto.
  - refine (coll_incl _ _ _ Co). intros x I. right. right. exact I.
Qed.
Lemma b32_len32 (a : bytes32) : length (b32 a) = 32.
Proof. exact (b32_length a). Qed.
Lemma s_pre_len {H : Hasher} tag d : length (s_pre tag d) = 64 + length d.
Proof. unfold s_pre. rewrite !app_length, !b32_len32. lia. Qed.
Lemma c25_commitment_not_node : forall (H : Hasher) c l n,
  concealed_string c <> leaf_string l /\ concealed_string c <> node_string n.
Proof.
  intros H [d c r] l n. split; intros E; apply (f_equal (@length byte)) in E; revert E.
  - destruct l as [p m|e i]; unfold concealed_string, leaf_string, s_commit, s_leaf, s_entropy; rewrite !s_pre_len;
      cbn [length]; rewrite !app_length, ?b32_len32, ?le_length; lia.
  - destruct n as [[] x w a b]; unfold concealed_string, node_string, s_commit; rewrite !s_pre_len;
      cbn [length]; rewrite !app_length, ?b32_len32, ?le_length; lia.
Qed.

(** ** C26 *)
Lemma c26_one_leaf_refuted : forall (H : Hasher) a b, exists n,
  valid_node n /\ merklize [node_commit_id n] = merklize [a; b] /\ (exists r, merklize [a; b] = Ret r) /\
  [node_commit_id n] <> [a; b].
Proof.
  intros H a b. exists (MNode Branch 0 2 a b). split; [split; reflexivity|split; [reflexivity|split; [eexists; reflexivity|discriminate]]].
Qed.

(** ** C28 *)
Lemma climbs_pushes s ds d : climbs s ds d ->
  pushes s ds = Buoy d None /\
  forall pre suf, ds = pre ++ suf -> suf <> [] -> d < buoy_level (pushes s pre).
Proof.
  revert s. induction ds as [|k r IH]; intros s C; cbn in C.
  - subst s. split; [reflexivity|]. intros pre suf E N. symmetry in E. apply app_eq_nil in E as [_ E]. contradiction.
  - destruct C as [L [C _]]. destruct (IH _ C) as [E P]. split; [exact E|].
    intros [|k' pre] suf Q N; cbn in Q.
    + exact L.
    + injection Q as <- Q. exact (P pre suf Q N).
Qed.
Lemma c28_subtree : forall t d first later
  (frontier : fdepths d t = first :: later),
  pushes (buoy_new first) later = Buoy d None /\
  buoy_level (pushes (buoy_new first) later) = d /\
  forall pre suf, later = pre ++ suf -> suf <> [] -> d < buoy_level (pushes (buoy_new first) pre).
Proof.
  intros t d e ds E. apply buoy_subtree in E. destruct (climbs_pushes _ _ _ E) as [P Q].
  split; [exact P|split; [rewrite P; reflexivity|exact Q]].
Qed.
Lemma c28_level : forall t d first later pre suf
  (frontier : fdepths d t = first :: later) (so_far : later = pre ++ suf),
  hd_error (pending (first :: pre)) = Some (buoy_level (pushes (buoy_new first) pre)).
Proof. intros t d first later pre suf E S. exact (level_pending t d first later pre suf E S). Qed.
Lemma c28_surfaced : forall b stack k,
  match buoy_push (Buoy b stack) k with
  | (true, Buoy b' stack') => b = S b' /\ stack' = None
  | (false, Buoy b' _) => b' = b
  end.
Proof.
  assert (F : forall b k, match buoy_push_flat b k with
    | (true, Buoy b' stack') => b = S b' /\ stack' = None | (false, Buoy b' _) => b' = b end).
  { intros b k. unfold buoy_push_flat. destruct (k =? 0) eqn:E0; [reflexivity|].
    destruct (k =? b) eqn:E; [|reflexivity]. apply Nat.eqb_eq in E. apply Nat.eqb_neq in E0. split; [lia|reflexivity]. }
  intros b [s|] k; cbn [buoy_push].
  - destruct (k =? 0); [reflexivity|]. destruct (buoy_push s k) as [[] s']; [apply F|reflexivity].
  - destruct (k =? 0); [reflexivity|]. apply F.
Qed.
