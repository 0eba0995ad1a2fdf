(** Hiding: reprogramming the hash at the tops of the hidden subtrees. *)
From Verif Require Import Base BaseFacts SpecHash SpecTree SpecFull SpecLocal HashFacts TreeFacts.
Local Open Scope nat_scope.

Lemma coll_dec {H : Hasher} L : {collision_in L} + {~ collision_in L}.
Proof.
  assert (A : forall x, {exists y, In y L /\ x <> y /\ HASH x = HASH y} + {~ exists y, In y L /\ x <> y /\ HASH x = HASH y}).
  { intros x. induction L as [|y L IH].
    - right. intros [y [[] _]].
    - destruct IH as [I|I]; [left; destruct I as [z [Z1 Z2]]; exists z; split; [right; exact Z1|exact Z2]|].
      destruct (bytes_eq_dec x y) as [E|N]; [|destruct (b32_eq_dec (HASH x) (HASH y)) as [E|N']].
      + right. intros [z [[<-|Z] Z2]]; [tauto|]. apply I. exists z. auto.
      + left. exists y. split; [left; reflexivity|auto].
      + right. intros [z [[<-|Z] Z2]]; [tauto|]. apply I. exists z. auto. }
  assert (B : forall M, {exists x, In x M /\ exists y, In y L /\ x <> y /\ HASH x = HASH y} +
                        {~ exists x, In x M /\ exists y, In y L /\ x <> y /\ HASH x = HASH y}).
  { induction M as [|x M IH].
    - right. intros [x [[] _]].
    - destruct IH as [I|I]; [left; destruct I as [z [Z1 Z2]]; exists z; split; [right; exact Z1|exact Z2]|].
      destruct (A x) as [E|N].
      + left. exists x. split; [left; reflexivity|exact E].
      + right. intros [z [[<-|Z] Z2]]; [tauto|]. apply I. exists z. auto. }
  destruct (B L) as [E|N]; [left|right].
  - destruct E as [x [X [y [Y [Ne E]]]]]. exists x, y. auto.
  - intros [x [y [X [Y [Ne E]]]]]. apply N. exists x. split; [exact X|]. exists y. auto.
Qed.

(** Subtrees of a perfect tree: height and first position *)
Inductive sub : nat -> N -> nat -> N -> Prop :=
| sub_refl k o : sub k o k o
| sub_l k o k2 o2 : sub k o k2 o2 -> sub (S k) o k2 o2
| sub_r k o k2 o2 : sub k (o + 2 ^ N.of_nat k)%N k2 o2 -> sub (S k) o k2 o2.
Lemma sub_trans a oa b ob c oc : sub a oa b ob -> sub b ob c oc -> sub a oa c oc.
Proof. induction 1; intros S; [exact S|apply sub_l; auto|apply sub_r; auto]. Qed.
Lemma sub_bounds a oa b ob : sub a oa b ob -> b <= a /\ (oa <= ob)%N /\ (ob + 2 ^ N.of_nat b <= oa + 2 ^ N.of_nat a)%N.
Proof.
  induction 1 as [k o|k o k2 o2 S IH|k o k2 o2 S IH]; [lia| |]; rewrite Nat2N.inj_succ, N.pow_succ_r'; lia.
Qed.
Lemma pow_pos k : (0 < 2 ^ N.of_nat k)%N.
Proof. apply N.neq_0_lt_0, N.pow_nonzero. discriminate. Qed.

Section Hide.
Context (H : Hasher) (D : nat) (W : N).
Context (HD : D <= 31) (HW : (W < 2 ^ 256)%N).

Definition cells := N -> option (bytes32 * bytes32).
Definition lstr {Hs : Hasher} (c : cells) (e i : N) : list byte :=
  match c i with Some (p, m) => s_leaf p m | None => s_entropy e i end.
Definition lpt {Hs : Hasher} (c : cells) (e i : N) : ptree :=
  match c i with Some (p, m) => PLeaf p m | None => PConc (HASH (s_entropy e i)) end.
Definition nh {Hs : Hasher} (c : cells) (e : N) (k : nat) (o : N) : bytes32 :=
  phash W (D - k) (full_tree k o (lpt c e)).
Definition nstr {Hs : Hasher} (c : cells) (e : N) (k : nat) (o : N) : list byte :=
  match k with
  | O => lstr c e o
  | S k' => s_branch (D - S k') W (nh c e k' o) (nh c e k' (o + 2 ^ N.of_nat k')%N)
  end.
Lemma nh_str {Hs : Hasher} c e k o : k <= D -> nh c e k o = HASH (nstr c e k o).
Proof.
  intros K. destruct k as [|k].
  - unfold nh, nstr, lstr. cbn [full_tree]. unfold lpt. destruct (c o) as [[p m]|]; reflexivity.
  - unfold nh, nstr. cbn [full_tree phash]. replace (S (D - S k)) with (D - k) by lia. reflexivity.
Qed.

(** Two trees, the identifiers shown, and no collision *)
Context (c c' : cells) (e e' : N) (f : bytes32 -> bool) (L : list (list byte)).
Definition cs (s : bool) : cells := if s then c else c'.
Definition es (s : bool) : N := if s then e else e'.
Definition node k o := sub D 0 k o.
Context (NC : ~ collision_in L)
  (inL : forall s k o, node k o -> In (nstr (cs s) (es s) k o) L)
  (tagL : In s_node_tag L /\ In s_commit_tag L)
  (leafdet : forall s s' i j, node 0 i -> node 0 j -> lstr (cs s) (es s) i = lstr (cs s') (es s') j -> i = j)
  (agree : forall i, node 0 i ->
     match c i with Some (p, m) => if f p then Some (p, m) else None | None => None end =
     match c' i with Some (p, m) => if f p then Some (p, m) else None | None => None end).

Lemma node_l k o : node (S k) o -> node k o.
Proof. intros N. eapply sub_trans; [exact N|]. apply sub_l, sub_refl. Qed.
Lemma node_r k o : node (S k) o -> node k (o + 2 ^ N.of_nat k)%N.
Proof. intros N. eapply sub_trans; [exact N|]. apply sub_r, sub_refl. Qed.
Lemma node_k k o : node k o -> k <= D.
Proof. intros N. apply sub_bounds in N. lia. Qed.

Lemma nc_inj x y : In x L -> In y L -> HASH x = HASH y -> x = y.
Proof. intros X Y E. destruct (coll L x y X Y E) as [Q|Q]; [exact Q|contradiction]. Qed.

Lemma str_pos s s' k : forall o k2 o2, node k o -> node k2 o2 ->
  nstr (cs s) (es s) k o = nstr (cs s') (es s') k2 o2 -> k = k2 /\ o = o2.
Proof.
  induction k as [|k IH]; intros o [|k2] o2 N N2 E.
  - split; [reflexivity|]. exact (leafdet s s' o o2 N N2 E).
  - exfalso. cbn [nstr] in E. unfold lstr in E. destruct (cs s o) as [[p m]|].
    + exact (s_leaf_branch _ _ _ _ _ _ E).
    + exact (s_entropy_branch _ _ _ _ _ _ E).
  - exfalso. cbn [nstr] in E. unfold lstr in E. symmetry in E. destruct (cs s' o2) as [[p m]|].
    + exact (s_leaf_branch _ _ _ _ _ _ E).
    + exact (s_entropy_branch _ _ _ _ _ _ E).
  - pose proof (node_k _ _ N). pose proof (node_k _ _ N2). cbn [nstr] in E.
    apply s_branch_inj in E as [E1 [_ [E2 _]]]; [|lia|lia|exact HW|exact HW].
    assert (k = k2) by lia. subst k2. split; [reflexivity|].
    rewrite !nh_str in E2 by lia. apply nc_inj in E2; [|apply inL, node_l, N|apply inL, node_l, N2].
    apply IH in E2; [tauto|apply node_l, N|apply node_l, N2].
Qed.

Fixpoint vis (k : nat) (o : N) : bool :=
  match k with
  | O => match c o with Some (p, m) => f p | None => false end
  | S k' => vis k' o || vis k' (o + 2 ^ N.of_nat k')%N
  end.
Lemma vis_leaves {Hs : Hasher} k o : existsb (fun x => f (fst x)) (pleaves (full_tree k o (lpt c e))) = vis k o.
Proof.
  revert o. induction k as [|k IH]; intros o; cbn [full_tree vis pleaves].
  - unfold lpt. destruct (c o) as [[p m]|]; cbn; [apply orb_false_r|reflexivity].
  - rewrite existsb_app, !IH. reflexivity.
Qed.
Lemma vis_leaves' {Hs : Hasher} k : forall o, node k o -> existsb (fun x => f (fst x)) (pleaves (full_tree k o (lpt c' e'))) = vis k o.
Proof.
  induction k as [|k IH]; intros o N; cbn [full_tree vis pleaves].
  - pose proof (agree o N) as A. unfold lpt. destruct (c o) as [[p m]|], (c' o) as [[p' m']|]; cbn; try reflexivity.
    + rewrite orb_false_r. destruct (f p) eqn:E, (f p') eqn:E'; congruence.
    + destruct (f p); [discriminate|reflexivity].
    + rewrite orb_false_r. destruct (f p'); [discriminate|reflexivity].
  - rewrite existsb_app, IH, IH; [reflexivity|apply node_r, N|apply node_l, N].
Qed.
Lemma vis_up a oa b ob : sub a oa b ob -> vis b ob = true -> vis a oa = true.
Proof.
  induction 1 as [| |]; intros V; [exact V| |]; cbn [vis]; rewrite IHsub by exact V; [reflexivity|apply orb_true_r].
Qed.

Fixpoint tops (k : nat) (o : N) : list (nat * N) :=
  if vis k o then match k with O => [] | S k' => tops k' o ++ tops k' (o + 2 ^ N.of_nat k')%N end else [(k, o)].
Lemma tops_sub k : forall o k2 o2, In (k2, o2) (tops k o) -> sub k o k2 o2 /\ vis k2 o2 = false.
Proof.
  induction k as [|k IH]; intros o k2 o2 I; cbn [tops] in I.
  - destruct (vis 0 o) eqn:V; [destruct I|]. destruct I as [Q|[]]. injection Q as <- <-. split; [apply sub_refl|exact V].
  - destruct (vis (S k) o) eqn:V.
    + apply in_app_or in I as [I|I]; apply IH in I as [S F]; (split; [|exact F]); [apply sub_l|apply sub_r]; exact S.
    + destruct I as [Q|[]]. injection Q as <- <-. split; [apply sub_refl|exact V].
Qed.
Lemma tops_disjoint k : forall o k2 o2 k3 o3, In (k2, o2) (tops k o) -> In (k3, o3) (tops k o) ->
  (k2 = k3 /\ o2 = o3) \/ (o2 + 2 ^ N.of_nat k2 <= o3)%N \/ (o3 + 2 ^ N.of_nat k3 <= o2)%N.
Proof.
  induction k as [|k IH]; intros o k2 o2 k3 o3 I J; cbn [tops] in I, J.
  - destruct (vis 0 o); [destruct I|]. destruct I as [Q|[]], J as [Q'|[]]. left. split; congruence.
  - destruct (vis (S k) o).
    + apply in_app_or in I. apply in_app_or in J. destruct I as [I|I], J as [J|J].
      * eapply IH; eassumption.
      * right. left. apply tops_sub in I as [I _]. apply tops_sub in J as [J _]. apply sub_bounds in I. apply sub_bounds in J. lia.
      * right. right. apply tops_sub in I as [I _]. apply tops_sub in J as [J _]. apply sub_bounds in I. apply sub_bounds in J. lia.
      * eapply IH; eassumption.
    + destruct I as [Q|[]], J as [Q'|[]]. left. split; congruence.
Qed.
Lemma tops_child k o k2 o2 : sub k o (S k2) o2 -> vis (S k2) o2 = true ->
  (vis k2 o2 = false -> In (k2, o2) (tops k o)) /\
  (vis k2 (o2 + 2 ^ N.of_nat k2)%N = false -> In (k2, (o2 + 2 ^ N.of_nat k2)%N) (tops k o)).
Proof.
  intros S V. pose proof (vis_up _ _ _ _ S V) as U. remember (Datatypes.S k2) as kk eqn:K. revert U.
  assert (T : forall k o, vis k o = false -> In (k, o) (tops k o)).
  { intros k0 o0 F. destruct k0; cbn [tops]; rewrite F; left; reflexivity. }
  induction S as [k o|k o k3 o3 S IH|k o k3 o3 S IH]; intros U.
  - subst k. cbn [tops]. rewrite U. split; intros F; apply in_or_app; [left|right]; apply T; exact F.
  - cbn [tops]. rewrite U. destruct (IH K V (vis_up _ _ _ _ S V)) as [A B]. split; intros F; apply in_or_app; left; auto.
  - cbn [tops]. rewrite U. destruct (IH K V (vis_up _ _ _ _ S V)) as [A B]. split; intros F; apply in_or_app; right; auto.
Qed.

Definition table : list (list byte * bytes32) :=
  map (fun x => (nstr c' e' (fst x) (snd x), nh c e (fst x) (snd x))) (tops D 0).
Definition H' : Hasher := fun x =>
  match find (fun y => bytes_eqb (fst y) x) table with Some y => snd y | None => HASH x end.

Lemma top_node k o : In (k, o) (tops D 0) -> node k o.
Proof. intros I. apply tops_sub in I. tauto. Qed.
Lemma h_other x : (forall k o, In (k, o) (tops D 0) -> nstr c' e' k o <> x) -> @HASH H' x = HASH x.
Proof.
  intros A. unfold HASH at 1, H'. destruct (find _ table) as [y|] eqn:F; [|reflexivity]. exfalso.
  apply find_some in F as [I Q]. apply bytes_eqb_eq in Q. unfold table in I. apply in_map_iff in I as [[k o] [<- I]].
  cbn [fst snd] in Q. exact (A k o I Q).
Qed.
Lemma h_top k o : In (k, o) (tops D 0) -> @HASH H' (nstr c' e' k o) = nh c e k o.
Proof.
  intros I. unfold HASH at 1, H'. destruct (find _ table) as [y|] eqn:F.
  - apply find_some in F as [J Q]. apply bytes_eqb_eq in Q. unfold table in J. apply in_map_iff in J as [[k2 o2] [<- J]].
    cbn [fst snd] in *. destruct (str_pos false false k2 o2 k o (top_node _ _ J) (top_node _ _ I) Q) as [-> ->]. reflexivity.
  - exfalso. assert (J : In (nstr c' e' k o, nh c e k o) table) by (unfold table; apply in_map_iff; exists (k, o); auto).
    pose proof (find_none _ _ F _ J) as Q. cbn [fst] in Q.
    pose proof (proj2 (bytes_eqb_eq (nstr c' e' k o) (nstr c' e' k o)) eq_refl). congruence.
Qed.
Lemma h_inv x : @HASH H' x <> HASH x -> exists k o, In (k, o) (tops D 0) /\ x = nstr c' e' k o.
Proof.
  intros N. unfold HASH at 1, H' in N. destruct (find _ table) as [y|] eqn:F; [|congruence].
  apply find_some in F as [J Q]. apply bytes_eqb_eq in Q. unfold table in J. apply in_map_iff in J as [[k o] [<- J]].
  exists k, o. split; [exact J|symmetry; exact Q].
Qed.

Lemma nstr_long k o : 64 <= length (nstr c' e' k o).
Proof.
  assert (P : forall d, 64 <= length (s_pre s_node_tag d)) by (intros d; unfold s_pre; rewrite !app_length, !b32_length; lia).
  destruct k as [|k]; cbn [nstr]; [unfold lstr; destruct (c' o) as [[p m]|]|]; apply P.
Qed.
Lemma h_tag : @HASH H' s_node_tag = HASH s_node_tag /\ @HASH H' s_commit_tag = HASH s_commit_tag.
Proof.
  split; apply h_other; intros k o _ E; pose proof (nstr_long k o) as Q; rewrite E in Q; cbn in Q; lia.
Qed.
Lemma s_pre_same d : @s_pre H' s_node_tag d = s_pre s_node_tag d.
Proof. unfold s_pre. rewrite (proj1 h_tag). reflexivity. Qed.
Lemma s_leaf_same p m : @s_leaf H' p m = s_leaf p m.
Proof. apply s_pre_same. Qed.
Lemma s_entropy_same x i : @s_entropy H' x i = s_entropy x i.
Proof. apply s_pre_same. Qed.
Lemma s_branch_same d w a b : @s_branch H' d w a b = s_branch d w a b.
Proof. apply s_pre_same. Qed.
Lemma s_commit_same d w a : @s_commit H' d w a = s_commit d w a.
Proof. unfold s_commit, s_pre. rewrite (proj2 h_tag). reflexivity. Qed.
Lemma lstr_same i : @lstr H' c' e' i = lstr c' e' i.
Proof. unfold lstr. destruct (c' i) as [[p m]|]; [apply s_leaf_same|apply s_entropy_same]. Qed.

(** Strictly below a top nothing changes. *)
Lemma below_new k o k1 o1 : In (k1, o1) (tops D 0) -> sub k1 o1 k o -> k < k1 ->
  forall k2 o2, In (k2, o2) (tops D 0) -> nstr c' e' k2 o2 <> nstr c' e' k o.
Proof.
  intros I S K k2 o2 J E. apply (str_pos false false) in E as [-> ->];
    [|apply top_node; exact J|eapply sub_trans; [apply top_node; exact I|exact S]].
  apply sub_bounds in S. pose proof (pow_pos k1). pose proof (pow_pos k).
  destruct (tops_disjoint D 0 _ _ _ _ I J) as [[Q _]|Q]; lia.
Qed.
Lemma below k : forall o k1 o1, In (k1, o1) (tops D 0) -> sub k1 o1 k o -> k < k1 -> @nh H' c' e' k o = nh c' e' k o.
Proof.
  induction k as [|k IH]; intros o k1 o1 I S K; pose proof (below_new _ _ _ _ I S K) as O;
    pose proof (node_k _ _ (top_node _ _ I)); rewrite !nh_str by lia.
  - cbn [nstr]. rewrite lstr_same. apply h_other. exact O.
  - cbn [nstr]. rewrite s_branch_same.
    rewrite (IH o k1 o1 I), (IH (o + 2 ^ N.of_nat k)%N k1 o1 I); try lia.
    + apply h_other. exact O.
    + eapply sub_trans; [exact S|]. apply sub_r, sub_refl.
    + eapply sub_trans; [exact S|]. apply sub_l, sub_refl.
Qed.
Lemma top_hash k o : In (k, o) (tops D 0) -> @nh H' c' e' k o = nh c e k o.
Proof.
  intros I. pose proof (node_k _ _ (top_node _ _ I)) as K. rewrite (@nh_str H') by exact K.
  rewrite <- (h_top k o I). f_equal. destruct k as [|k]; cbn [nstr]; [apply lstr_same|].
  rewrite s_branch_same. f_equal; (eapply below; [exact I| |lia]); [apply sub_l|apply sub_r]; apply sub_refl.
Qed.
Lemma vis_new k o : node k o -> vis k o = true ->
  forall k2 o2, In (k2, o2) (tops D 0) -> nstr c' e' k2 o2 <> nstr c e k o.
Proof.
  intros N V k2 o2 J E. apply (str_pos false true) in E as [-> ->]; [|apply top_node; exact J|exact N].
  apply tops_sub in J as [_ J]. congruence.
Qed.
Lemma vis_hash k : forall o, node k o -> vis k o = true -> @nh H' c' e' k o = nh c e k o.
Proof.
  induction k as [|k IH]; intros o N V; pose proof (node_k _ _ N) as K; rewrite !nh_str by exact K;
    pose proof (vis_new _ _ N V) as O.
  - assert (Q : nstr (Hs:=H') c' e' 0 o = nstr c e 0 o).
    { cbn [nstr]. rewrite lstr_same. unfold lstr. pose proof (agree o N) as A. cbn [vis] in V.
      destruct (c o) as [[p m]|]; [|discriminate]. rewrite V in A. destruct (c' o) as [[p' m']|]; [|discriminate].
      destruct (f p'); congruence. }
    rewrite Q. apply h_other. exact O.
  - assert (Q : nstr (Hs:=H') c' e' (S k) o = nstr c e (S k) o).
    { cbn [nstr]. rewrite s_branch_same. destruct (tops_child D 0 k o N V) as [A B].
      f_equal.
      - destruct (vis k o) eqn:E; [apply IH; [apply node_l, N|exact E]|apply top_hash, A; reflexivity].
      - destruct (vis k (o + 2 ^ N.of_nat k)%N) eqn:E; [apply IH; [apply node_r, N|exact E]|apply top_hash, B; reflexivity]. }
    rewrite Q. apply h_other. exact O.
Qed.
Lemma root_hash : @nh H' c' e' D 0 = nh c e D 0.
Proof.
  destruct (vis D 0) eqn:V; [apply vis_hash; [apply sub_refl|exact V]|]. apply top_hash.
  destruct D; cbn [tops]; rewrite V; left; reflexivity.
Qed.

Lemma restrict_same k : forall o, node k o -> vis k o = true \/ In (k, o) (tops D 0) ->
  @prestrict H' f W (D - k) (full_tree k o (@lpt H' c' e')) = @prestrict H f W (D - k) (full_tree k o (@lpt H c e)).
Proof.
  induction k as [|k IH]; intros o N V.
  - destruct (vis 0 o) eqn:E.
    + cbn [full_tree]. pose proof (agree o N) as A. cbn [vis] in E. unfold lpt.
      destruct (c o) as [[p m]|]; [|discriminate]. rewrite E in A. destruct (c' o) as [[p' m']|]; [|discriminate].
      destruct (f p') eqn:E'; [|discriminate]. injection A as <- <-. cbn [prestrict]. rewrite E. reflexivity.
    + destruct V as [V|V]; [discriminate|]. rewrite !prestrict_none; [f_equal; apply (top_hash 0 o V)|rewrite vis_leaves; exact E|rewrite vis_leaves' by exact N; exact E].
  - destruct (vis (S k) o) eqn:E.
    + pose proof (vis_leaves (Hs:=H) (S k) o) as A. pose proof (vis_leaves' (Hs:=H') (S k) o N) as A'. rewrite E in A, A'.
      cbn [full_tree] in *. cbn [prestrict]. rewrite A, A'.
      pose proof (node_k _ _ N). replace (S (D - S k)) with (D - k) by lia. destruct (tops_child D 0 k o N E) as [B B'].
      f_equal; apply IH; [apply node_l, N| |apply node_r, N|].
      * destruct (vis k o); auto.
      * destruct (vis k (o + 2 ^ N.of_nat k)%N); auto.
    + destruct V as [V|V]; [discriminate|]. rewrite !prestrict_none; [f_equal; apply (top_hash (S k) o V)|rewrite vis_leaves; exact E|rewrite vis_leaves' by exact N; exact E].
Qed.
Lemma restrict_root : @prestrict H' f W 0 (full_tree D 0 (@lpt H' c' e')) = @prestrict H f W 0 (full_tree D 0 (@lpt H c e)).
Proof.
  pose proof (restrict_same D 0 (sub_refl _ _)) as Q. rewrite Nat.sub_diag in Q. apply Q.
  destruct (vis D 0) eqn:V; [left; reflexivity|right]. destruct D; cbn [tops]; rewrite V; left; reflexivity.
Qed.
Lemma commit_same D2 cof r : @HASH H' (@s_commit H D2 cof r) = HASH (s_commit D2 cof r).
Proof.
  apply h_other. intros k o I E.
  assert (T : HASH s_node_tag = HASH s_commit_tag).
  { destruct k as [|k]; cbn [nstr] in E; [unfold lstr in E; destruct (c' o) as [[p m]|]|]; apply s_pre_tags in E; tauto. }
  apply nc_inj in T; [discriminate|tauto|tauto].
Qed.
(** Changed values are at strings of the second tree which are no strings of the first. *)
Lemma changed_new x : @HASH H' x <> HASH x -> (exists k o, node k o /\ x = nstr c' e' k o) /\
  (forall k o, node k o -> x <> nstr c e k o) /\ x <> s_node_tag /\ x <> s_commit_tag /\ forall D2 cof r, x <> s_commit D2 cof r.
Proof.
  intros N. pose proof N as N0. apply h_inv in N as [k [o [I ->]]]. split; [exists k, o; split; [apply top_node; exact I|reflexivity]|].
  split; [|split; [|split]].
  - intros k2 o2 J E. pose proof E as E'. apply (str_pos false true) in E as [-> ->]; [|apply top_node; exact I|exact J].
    apply N0. rewrite (h_top k2 o2 I), E'. apply nh_str. exact (node_k _ _ J).
  - intros E. apply N0. rewrite E. apply h_tag.
  - intros E. apply N0. rewrite E. apply h_tag.
  - intros D2 cof r E. apply N0. rewrite E. apply commit_same.
Qed.
(** What is beside the way to something shown *)
Lemma aside_same k : forall o pos, node k o -> sub k o 0 pos -> vis 0 pos = true ->
  @aside H' W (D - k) k o (@lpt H' c' e') pos = @aside H W (D - k) k o (@lpt H c e) pos.
Proof.
  induction k as [|k IH]; intros o pos N S V; [reflexivity|]. cbn [aside].
  pose proof (vis_up _ _ _ _ S V) as U. destruct (tops_child D 0 k o N U) as [A B].
  pose proof (node_k _ _ N). replace (Datatypes.S (D - Datatypes.S k)) with (D - k) by lia.
  pose proof (sub_bounds _ _ _ _ S) as SB. change (2 ^ N.of_nat 0)%N with 1%N in SB.
  assert (P : forall o1, sub k o1 0 pos -> (o1 <= pos < o1 + 2 ^ N.of_nat k)%N)
    by (intros o1 S1; apply sub_bounds in S1; change (2 ^ N.of_nat 0)%N with 1%N in S1; lia).
  destruct (o + 2 ^ N.of_nat k <=? pos)%N eqn:Q; [apply N.leb_le in Q|apply N.leb_gt in Q].
  - assert (S1 : sub k (o + 2 ^ N.of_nat k)%N 0 pos)
      by (inversion S; subst; [match goal with X : sub k o 0 pos |- _ => apply P in X; lia end|assumption]).
    f_equal; [|apply IH; [apply node_r, N|exact S1|exact V]].
    destruct (vis k o) eqn:E; [exact (vis_hash k o (node_l _ _ N) E)|exact (top_hash k o (A eq_refl))].
  - assert (S1 : sub k o 0 pos)
      by (inversion S; subst; [assumption|match goal with X : sub k (_ + _)%N 0 pos |- _ => apply P in X; lia end]).
    f_equal; [|apply IH; [apply node_l, N|exact S1|exact V]].
    destruct (vis k (o + 2 ^ N.of_nat k)%N) eqn:E;
      [exact (vis_hash k _ (node_r _ _ N) E)|exact (top_hash k _ (B eq_refl))].
Qed.

(** Nothing changes for the first tree. *)
Lemma first_string k o : node k o -> @HASH H' (nstr c e k o) = HASH (nstr c e k o).
Proof.
  intros N. destruct (b32_eq_dec (@HASH H' (nstr c e k o)) (HASH (nstr c e k o))) as [E|E]; [exact E|].
  apply changed_new in E as [_ [E _]]. exfalso. exact (E k o N eq_refl).
Qed.
Lemma first_nh k : forall o, node k o -> @nh H' c e k o = nh c e k o.
Proof.
  induction k as [|k IH]; intros o N; pose proof (node_k _ _ N) as K; rewrite !nh_str by exact K; rewrite <- (first_string _ _ N); f_equal; cbn [nstr].
  - unfold lstr. destruct (c o) as [[p m]|]; [apply s_leaf_same|apply s_entropy_same].
  - rewrite s_branch_same, (IH o), (IH (o + 2 ^ N.of_nat k)%N); [reflexivity|apply node_r, N|apply node_l, N].
Qed.
Lemma first_full k : forall o, node k o -> full_tree k o (@lpt H' c e) = full_tree k o (@lpt H c e).
Proof.
  induction k as [|k IH]; intros o N; cbn [full_tree].
  - pose proof (first_string 0 o N) as S. cbn [nstr] in S. unfold lstr, lpt in *. destruct (c o) as [[p m]|]; [reflexivity|].
    rewrite s_entropy_same, S. reflexivity.
  - rewrite IH, IH; [reflexivity|apply node_r, N|apply node_l, N].
Qed.
Lemma first_restrict k : forall o, node k o ->
  @prestrict H' f W (D - k) (full_tree k o (@lpt H' c e)) = @prestrict H f W (D - k) (full_tree k o (@lpt H c e)).
Proof.
  induction k as [|k IH]; intros o N; pose proof (node_k _ _ N) as K.
  - pose proof (first_nh 0 o N) as S. unfold nh in S. rewrite (first_full 0 o N) in *. cbn [full_tree] in *.
    unfold lpt in *. destruct (c o) as [[p m]|]; cbn [prestrict] in *; [|reflexivity].
    destruct (f p); [reflexivity|]. f_equal. exact S.
  - pose proof (first_nh _ o N) as S. unfold nh in S.
    pose proof (vis_leaves (Hs:=H) (Datatypes.S k) o) as A. pose proof (vis_leaves (Hs:=H') (Datatypes.S k) o) as A'.
    destruct (vis (Datatypes.S k) o).
    + cbn [full_tree] in *. cbn [prestrict]. rewrite A, A'. replace (Datatypes.S (D - Datatypes.S k)) with (D - k) by lia.
      f_equal; apply IH; [apply node_l, N|apply node_r, N].
    + rewrite !prestrict_none by assumption. f_equal. exact S.
Qed.
Lemma first_aside k : forall o pos, node k o ->
  @aside H' W (D - k) k o (@lpt H' c e) pos = @aside H W (D - k) k o (@lpt H c e) pos.
Proof.
  induction k as [|k IH]; intros o pos N; [reflexivity|]. cbn [aside]. pose proof (node_k _ _ N).
  replace (Datatypes.S (D - Datatypes.S k)) with (D - k) by lia.
  destruct (o + 2 ^ N.of_nat k <=? pos)%N; f_equal.
  - exact (first_nh k o (node_l _ _ N)).
  - apply IH, node_r, N.
  - exact (first_nh k _ (node_r _ _ N)).
  - apply IH, node_l, N.
Qed.
End Hide.
