(** C90: breaking a commitment gives a collision, with little work. *)
From Verif Require Import Base BaseFacts OrdMap Strict Merkle MpcAtoms MpcTree MpcBlock.
From Verif Require Import SpecHash SpecTree SpecMerkle SpecFull SpecValid SpecFind SpecBlock SpecCommit TheoremsMpc TheoremsBlock TheoremsMerkle TheoremsQuery PathProofs.
Local Open Scope nat_scope.

Lemma c90_find : forall (H : Hasher) L,
  (forall x y, find_collision L = Some (x, y) -> In x L /\ In y L /\ x <> y /\ HASH x = HASH y) /\
  (collision_in L <-> exists x y, find_collision L = Some (x, y)).
Proof.
  intros H L.
  assert (S : forall x y, find_collision L = Some (x, y) -> In x L /\ In y L /\ x <> y /\ HASH x = HASH y).
  { induction L as [|z L IH]; intros x y; cbn [find_collision]; [discriminate|].
    destruct (find _ L) as [w|] eqn:F.
    - intros [= <- <-]. apply find_some in F as [I F]. apply andb_true_iff in F as [N E].
      apply negb_true_iff in N. apply b32_eqb_eq in E. split; [left; reflexivity|split; [right; exact I|split; [|exact E]]].
      intros X. apply bytes_eqb_eq in X. congruence.
    - intros X. destruct (IH x y X) as [A [B C]]. split; [right; exact A|split; [right; exact B|exact C]]. }
  split; [exact S|]. split.
  - clear S. induction L as [|z L IH]; intros [x [y [Ix [Iy [N E]]]]]; [destruct Ix|]. cbn [find_collision].
    destruct (find _ L) as [w|] eqn:F; [exists z, w; reflexivity|].
    assert (X : forall w, In w L -> z <> w -> HASH z <> HASH w).
    { intros w I D C. pose proof (find_none _ _ F w I) as G. apply andb_false_iff in G as [G|G].
      - apply negb_false_iff, bytes_eqb_eq in G. exact (D G).
      - apply b32_eqb_neq in G. exact (G C). }
    destruct Ix as [<-|Ix], Iy as [<-|Iy]; [congruence|exfalso; exact (X y Iy N E)|exfalso; exact (X x Ix (not_eq_sym N) (eq_sym E))|].
    apply IH. exists x, y. repeat split; assumption.
  - intros [x [y X]]. exists x, y. exact (S x y X).
Qed.

(** ** Lengths of the strings *)
Lemma pre_length {H : Hasher} tag d : length (s_pre tag d) = 64 + length d.
Proof. unfold s_pre. rewrite !app_length, b32_length. lia. Qed.
Lemma branch_length {H : Hasher} d W a b : length (s_branch d W a b) <= 162.
Proof. unfold s_branch. rewrite pre_length. cbn [length]. rewrite !app_length, le_length, !b32_length. lia. Qed.
Lemma leaf_length {H : Hasher} p m : length (s_leaf p m) <= 162.
Proof. unfold s_leaf. rewrite pre_length. cbn [length]. rewrite !app_length, !b32_length. lia. Qed.
Lemma entropy_length {H : Hasher} e p : length (s_entropy e p) <= 162.
Proof. unfold s_entropy. rewrite pre_length. cbn [length]. rewrite !app_length, !le_length. lia. Qed.
Lemma commit_length {H : Hasher} d c r : length (s_commit d c r) <= 162.
Proof. unfold s_commit. rewrite pre_length. cbn [length]. rewrite !app_length, le_length, !b32_length. lia. Qed.
Lemma tag_length : length s_node_tag <= 162 /\ length s_commit_tag <= 162.
Proof. split; apply Nat.leb_le; vm_compute; reflexivity. Qed.
Lemma ppre_length {H : Hasher} W t : forall d s, In s (ppre W d t) -> length s <= 162.
Proof.
  induction t as [h|p m|l IHl r IHr]; intros d s; cbn [ppre]; [intros []|intros [<-|[]]; apply leaf_length|].
  intros [<-|I]; [apply branch_length|]. apply in_app_or in I as [I|I]; [exact (IHl _ _ I)|exact (IHr _ _ I)].
Qed.
Lemma mtpre_length {H : Hasher} W t : forall d s, In s (mtpre W d t) -> length s <= 162.
Proof.
  induction t as [|a|a b|l IHl r IHr]; intros d s; cbn [mtpre].
  - intros [<-|[]]. unfold s_void. rewrite pre_length. cbn [length]. rewrite !app_length, le_length, !repeat_length. lia.
  - intros [<-|[]]. unfold s_single. rewrite pre_length. cbn [length]. rewrite !app_length, le_length, b32_length, !repeat_length. lia.
  - intros [<-|[]]. apply branch_length.
  - intros [<-|I]; [apply branch_length|]. apply in_app_or in I as [I|I]; [exact (IHl _ _ I)|exact (IHr _ _ I)].
Qed.
Lemma c90_strings : forall (H : Hasher) s,
  (forall D cofactor t, In s (pcommit_pre D cofactor t) -> length s <= 162) /\
  (forall pf pid msg, In s (proof_pre pf pid msg) -> length s <= 162) /\
  (forall t, In s (tree_pre t) -> length s <= 162) /\
  (forall xs L, root_hashed xs L -> In s L -> length s <= 162).
Proof.
  intros H s.
  assert (P : forall D cofactor t, In s (pcommit_pre D cofactor t) -> length s <= 162).
  { intros D c t. unfold pcommit_pre. cbn [app In]. intros [<-|[<-|[<-|I]]]; [apply tag_length|apply tag_length|apply commit_length|exact (ppre_length _ _ _ _ I)]. }
  split; [exact P|split; [intros pf pid msg; apply P|split]].
  - intros t I. apply in_app_or in I as [I|I]; [exact (P _ _ _ I)|]. apply in_flat_map in I as [pos [_ I]].
    destruct (om_get _ _ _); [destruct I|]. destruct I as [<-|[]]. apply entropy_length.
  - intros xs L R I. destruct R as [a|xs t N S]; [destruct I|]. destruct I as [<-|I]; [apply tag_length|exact (mtpre_length _ _ _ _ I)].
Qed.

Lemma yields {H : Hasher} L : collision_in L -> (forall s, In s L -> length s <= 162) -> yields_collision L.
Proof.
  intros C B. destruct (c90_find H L) as [S [F _]]. destruct (F C) as [x [y E]]. destruct (S x y E) as [Ix [Iy [N X]]].
  exists x, y. split; [exact E|split; [exact N|split; [exact X|split; apply B; assumption]]].
Qed.
Lemma app_bound {H : Hasher} (L M : list (list byte)) : (forall s, In s L -> length s <= 162) -> (forall s, In s M -> length s <= 162) ->
  forall s, In s (L ++ M) -> length s <= 162.
Proof. intros A B s I. apply in_app_or in I as [I|I]; auto. Qed.

Lemma c90_two_messages : forall (H : Hasher) md1 md2 pf1 pf2 pid m1 m2 c
  (valid1 : valid_proof pf1) (valid2 : valid_proof pf2) (different : m1 <> m2)
  (conv1 : convolve md1 pf1 pid m1 = Ret (Ok c)) (conv2 : convolve md2 pf2 pid m2 = Ret (Ok c)),
  let L := proof_pre pf1 pid m1 ++ proof_pre pf2 pid m2 in
  length L = length (mp_path pf1) + length (mp_path pf2) + 8 /\ length L <= 70 /\ yields_collision L.
Proof.
  intros H md1 md2 pf1 pf2 pid m1 m2 c V1 V2 D E1 E2 L.
  assert (N : length L = length (mp_path pf1) + length (mp_path pf2) + 8).
  { unfold L. rewrite app_length. destruct (c85_count H) as [C _]. rewrite !C. lia. }
  split; [exact N|split].
  - rewrite N. destruct (Nat.leb_spec (length (mp_path pf1)) 31); [|rewrite convolve_long in E1 by lia; discriminate].
    destruct (Nat.leb_spec (length (mp_path pf2)) 31); [lia|rewrite convolve_long in E2 by lia; discriminate].
  - destruct (c01_one_message H md1 md2 pf1 pf2 pid m1 m2 c V1 V2 E1 E2) as [X|X]; [congruence|].
    apply yields; [exact X|]. apply app_bound; intros s; destruct (c90_strings H s) as [_ [P _]]; apply P.
Qed.
Lemma c90_two_trees : forall (H : Hasher) md src1 rng1 t1 src2 rng2 t2 c
  (valid1 : valid_source src1) (valid2 : valid_source src2)
  (rng1_u64 : match rng1 with Some e => (e < 2 ^ 64)%N | None => True end)
  (rng2_u64 : match rng2 with Some e => (e < 2 ^ 64)%N | None => True end)
  (made1 : try_commit src1 rng1 = Ret (Ok t1)) (made2 : try_commit src2 rng2 = Ret (Ok t2))
  (id1 : tree_commit_id md t1 = Ret c) (id2 : tree_commit_id md t2 = Ret c)
  (different : mt_messages t1 <> mt_messages t2),
  let L := tree_pre t1 ++ tree_pre t2 in
  length L = 2 * 2 ^ mt_depth t1 + 2 * 2 ^ mt_depth t2 + 4 /\ yields_collision L.
Proof.
  intros H md src1 rng1 t1 src2 rng2 t2 c V1 V2 R1 R2 M1 M2 I1 I2 D L. split.
  - unfold L. rewrite app_length. destruct (c85_count H) as [_ [C _]]. rewrite !C. lia.
  - destruct (c27_tree_binding H md src1 rng1 t1 src2 rng2 t2 c V1 V2 R1 R2 M1 M2 I1 I2) as [[_ [_ [X _]]]|X]; [congruence|].
    apply yields; [exact X|]. apply app_bound; intros s; destruct (c90_strings H s) as [_ [_ [P _]]]; apply P.
Qed.
Lemma c90_two_lists : forall (H : Hasher) xs ys r L L'
  (root1 : merklize xs = Ret r) (root2 : merklize ys = Ret r)
  (hashed1 : root_hashed xs L) (hashed2 : root_hashed ys L')
  (several1 : 1 < length xs) (several2 : 1 < length ys) (different : xs <> ys),
  length (L ++ L') <= 2 * length xs + 2 * length ys /\ yields_collision (L ++ L').
Proof.
  intros H xs ys r L L' R1 R2 H1 H2 S1 S2 D. split.
  - rewrite app_length. destruct (c85_count H) as [_ [_ C]].
    destruct (C _ _ H1) as [X| ->]; [|cbn in S1; lia]. destruct (C _ _ H2) as [Y| ->]; [lia|cbn in S2; lia].
  - destruct (c24_binding H xs ys r L L' R1 R2 H1 H2) as [X|X]; [split; lia|congruence|].
    apply yields; [exact X|]. apply app_bound; intros s; destruct (c90_strings H s) as [_ [_ [_ P]]]; eapply P; eassumption.
Qed.

(** Conversely a collision of leaves breaks every commitment containing one of them. *)
Lemma path_tree_hash {H : Hasher} W p m m' path : HASH (s_leaf p m) = HASH (s_leaf p m') ->
  forall d pos, phash W d (path_tree path pos p m) = phash W d (path_tree path pos p m').
Proof.
  intros E. induction path as [|h path IH]; intros d pos; cbn [path_tree phash]; [exact E|].
  destruct (_ <=? pos)%N; cbn [phash]; rewrite (IH (S d)); reflexivity.
Qed.
Lemma c90_tight : forall (H : Hasher) md pf pid m1 m2 c
  (conv : convolve md pf pid m1 = Ret (Ok c)) (collision : HASH (s_leaf pid m1) = HASH (s_leaf pid m2)),
  convolve md pf pid m2 = Ret (Ok c).
Proof.
  intros H md pf pid m1 m2 c E C. destruct (Nat.leb_spec (length (mp_path pf)) 31) as [L|L].
  - pose proof (c03_convolve_total H md pf pid m1 L) as A. pose proof (c03_convolve_total H md pf pid m2 L) as B. cbv zeta in A, B.
    rewrite E in A. rewrite B. destruct (N.eqb _ _); [|discriminate]. rewrite A. unfold pcommit.
    rewrite (path_tree_hash _ pid m1 m2 _ C). reflexivity.
  - exfalso. rewrite convolve_long in E by lia. discriminate E.
Qed.
