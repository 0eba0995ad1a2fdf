(** merkle.rs:150-195: merklization. *)
From Verif Require Import Base BaseFacts SpecHash HashFacts Merkle MpcAtoms MpcTree SpecMerkle.
From Verif Require Import SpecFull.
Local Open Scope nat_scope.

Lemma splits_exists xs : exists t, splits xs t.
Proof.
  remember (length xs) as n eqn:En. revert xs En.
  induction n as [n IH] using (well_founded_induction lt_wf). intros xs ->.
  destruct (le_lt_dec (length xs) 2) as [L|L].
  - destruct xs as [|a [|b [|c xs]]]; [eexists; constructor..|cbn in L; lia].
  - set (k := length xs / 2 + length xs mod 2).
    pose proof (Nat.div_mod (length xs) 2 ltac:(lia)) as Q.
    pose proof (Nat.mod_upper_bound (length xs) 2 ltac:(lia)) as Q2.
    assert (Lk : k <= length xs) by (unfold k; lia).
    destruct (IH (length (firstn k xs))) with (xs := firstn k xs) as [l Hl]; [|reflexivity|].
    { rewrite firstn_length. unfold k. lia. }
    destruct (IH (length (skipn k xs))) with (xs := skipn k xs) as [r Hr]; [|reflexivity|].
    { rewrite skipn_length. unfold k. lia. }
    exists (TSplit l r). rewrite <- (firstn_skipn k xs). constructor; [|..|exact Hl|exact Hr].
    + rewrite firstn_skipn. exact L.
    + rewrite firstn_length, skipn_length. unfold k. lia.
Qed.

Lemma split_sizes {A} (xs ys xs' ys' : list A) :
  length xs = length ys \/ length xs = S (length ys) ->
  length xs' = length ys' \/ length xs' = S (length ys') ->
  length (xs ++ ys) = length (xs' ++ ys') -> length xs = length xs' /\ length ys = length ys'.
Proof. rewrite !app_length. lia. Qed.

Lemma splits_fun xs t : splits xs t -> forall t', splits xs t' -> t = t'.
Proof.
  intros S1. induction S1 as [|a|a b|xs ys l r L Hs S1 IH1 S2 IH2]; intros t' S'.
  - inversion S' as [| | |xs ys l r L Hs X1 X2 E]; subst; [reflexivity|]. rewrite E in L. cbn in L. lia.
  - inversion S' as [| | |xs ys l r L Hs X1 X2 E]; subst; [reflexivity|]. rewrite E in L. cbn in L. lia.
  - inversion S' as [| | |xs ys l r L Hs X1 X2 E]; subst; [reflexivity|]. rewrite E in L. cbn in L. lia.
  - inversion S' as [E E'|a E E'|a b E E'|xs' ys' l' r' L' Hs' X1 X2 E E'].
    + rewrite <- E in L. cbn in L. lia.
    + rewrite <- E in L. cbn in L. lia.
    + rewrite <- E in L. cbn in L. lia.
    + destruct (split_sizes _ _ _ _ Hs' Hs) as [L1 L2]; [rewrite E; reflexivity|].
      apply app_inv_length in E as [-> ->]; [|exact L1].
      rewrite (IH1 _ X1), (IH2 _ X2). reflexivity.
Qed.

Lemma root_fun {H : Hasher} xs r r' : merkle_root_of xs r -> merkle_root_of xs r' -> r = r'.
Proof.
  intros R1 R2. destruct R1 as [a|xs t N S].
  - inversion R2 as [|? ? N]; subst; [reflexivity|]. cbn in N. lia.
  - inversion R2 as [a E|? ? N' S']; subst; [cbn in N; lia|]. rewrite (splits_fun _ _ S _ S'). reflexivity.
Qed.

Section M.
Context {H : Hasher}.

Lemma merklize_rec_spec fuel iter depth W t :
  splits iter t -> depth <= 31 -> 32 <= fuel + depth ->
  (N.of_nat (length iter) <= 2 ^ N.of_nat (32 - depth))%N ->
  merklize_rec fuel iter depth (N.of_nat (length iter)) W = Ret (mthash W depth t).
Proof.
  revert iter depth t; induction fuel as [|fuel IH]; intros iter depth t S Hd Hf Hb; [lia|].
  cbn [merklize_rec]. destruct (N.of_nat (length iter) <=? 2)%N eqn:E.
  - apply N.leb_le in E. destruct iter as [|a [|b [|c iter]]].
    + inversion S as [| | |xs ys l r L Hs X1 X2 Q]; subst; [reflexivity|]. rewrite Q in L. cbn in L; lia.
    + inversion S as [| | |xs ys l r L Hs X1 X2 Q]; subst; [reflexivity|]. rewrite Q in L. cbn in L; lia.
    + inversion S as [| | |xs ys l r L Hs X1 X2 Q]; subst; [reflexivity|]. rewrite Q in L. cbn in L; lia.
    + cbn in E. lia.
  - apply N.leb_gt in E. inversion S as [Q Q'|a Q Q'|a b Q Q'|xs ys l r L Hs X1 X2 Q Q'];
      [subst; cbn in E; lia..|].
    subst iter t.
    set (n := length (xs ++ ys)) in *.
    assert (Hn : n = length xs + length ys) by (unfold n; apply app_length).
    assert (Hdiv : (N.of_nat n / 2 + N.of_nat n mod 2 = N.of_nat (length xs))%N).
    { destruct Hs as [Hs|Hs].
      - replace (N.of_nat n) with (N.of_nat (length ys) * 2)%N by lia.
        rewrite N.div_mul, N.mod_mul by lia. lia.
      - replace (N.of_nat n) with (1 + N.of_nat (length ys) * 2)%N by lia.
        rewrite N.div_add, N.mod_add by lia. change (1 / 2)%N with 0%N. change (1 mod 2)%N with 1%N. lia. }
    rewrite Hdiv, Nat2N.id.
    rewrite firstn_app, firstn_all, Nat.sub_diag, skipn_app, skipn_all, Nat.sub_diag.
    cbn [firstn skipn app]. rewrite app_nil_r.
    assert (Hd31 : depth < 31).
    { destruct (Nat.eq_dec depth 31) as [->|]; [|lia]. cbn in Hb. lia. }
    unfold u5_add, u5_max. replace (depth + 1 <=? 31) with true by (symmetry; apply Nat.leb_le; lia).
    cbn [bind].
    assert (Hp : (2 ^ N.of_nat (32 - depth) = 2 * 2 ^ N.of_nat (32 - (depth + 1)))%N).
    { replace (32 - depth) with (Datatypes.S (32 - (depth + 1))) by lia.
      rewrite Nat2N.inj_succ, N.pow_succ_r'. reflexivity. }
    rewrite (IH xs (depth + 1) l X1) by lia. cbn [bind].
    replace (N.of_nat n - N.of_nat (length xs))%N with (N.of_nat (length ys)) by lia.
    rewrite (IH ys (depth + 1) r X2) by lia. cbn [bind mthash].
    replace (depth + 1) with (Datatypes.S depth) by lia. reflexivity.
Qed.

(** C22, C23 *)
Theorem merklize_spec nodes :
  (N.of_nat (length nodes) < 2 ^ 32)%N ->
  exists r, merklize nodes = Ret r /\ merkle_root_of nodes r.
Proof.
  intros L. unfold merklize, u32_lim.
  replace (N.of_nat (length nodes) <? 2 ^ 32)%N with true by (symmetry; apply N.ltb_lt; exact L).
  destruct (N.of_nat (length nodes) =? 1)%N eqn:E.
  - apply N.eqb_eq in E. destruct nodes as [|a [|b nodes]]; cbn in E; try lia.
    exists a. split; [reflexivity|constructor].
  - apply N.eqb_neq in E. destruct (splits_exists nodes) as [t St].
    exists (mthash (N.of_nat (length nodes)) 0 t). split.
    + apply merklize_rec_spec; [exact St|lia|lia|]. change (N.of_nat (32 - 0)) with 32%N. lia.
    + constructor; [lia|exact St].
Qed.
Theorem merklize_too_many nodes :
  (2 ^ 32 <= N.of_nat (length nodes))%N -> merklize nodes = Panic PExpect.
Proof.
  intros L. unfold merklize, u32_lim.
  replace (N.of_nat (length nodes) <? 2 ^ 32)%N with false by (symmetry; apply N.ltb_ge; exact L).
  reflexivity.
Qed.

(** ** Binding *)
Lemma s_single_inj d W a b : s_single d W a = s_single d W b -> a = b.
Proof.
  intros E. apply s_pre_inj in E. apply cons_inv in E as [_ E]. apply cons_inv in E as [_ E].
  apply app_inv_head in E. apply app_inv_length in E as [E _]; [|rewrite !b32_length; reflexivity].
  apply b32_inj. exact E.
Qed.
Lemma s_void_branch d W d' W' a b : s_void d W <> s_branch d' W' a b.
Proof. intros E. apply s_pre_inj in E. discriminate. Qed.
Lemma s_single_branch d W x d' W' a b : s_single d W x <> s_branch d' W' a b.
Proof. intros E. apply s_pre_inj in E. discriminate. Qed.
Lemma s_void_single d W d' W' a : s_void d W <> s_single d' W' a.
Proof. intros E. apply s_pre_inj in E. discriminate. Qed.

Lemma mthash_binding W xs ys t u d :
  splits xs t -> splits ys u -> length xs = length ys ->
  mthash W d t = mthash W d u -> xs = ys \/ collision_in (mtpre W d t ++ mtpre W d u).
Proof.
  intros S1; revert ys u d.
  induction S1 as [|a|a b|xs1 xs2 l r L Hs S1 IH1 S2 IH2]; intros ys u d S' Ln E.
  - destruct ys; [left; reflexivity|discriminate].
  - destruct ys as [|a' [|]]; try discriminate.
    inversion S' as [| | |? ? ? ? L' Hs' X1 X2 Q Q']; subst.
    + destruct (coll [s_single d W a; s_single d W a'] (s_single d W a) (s_single d W a')) as [Q|C]; cbn; auto.
      apply s_single_inj in Q. left. congruence.
    + rewrite Q in L'. cbn in L'. lia.
  - destruct ys as [|a' [|b' [|]]]; try discriminate.
    inversion S' as [| | |? ? ? ? L' Hs' X1 X2 Q Q']; subst.
    + destruct (coll [s_branch d W a b; s_branch d W a' b'] (s_branch d W a b) (s_branch d W a' b')) as [Q|C];
        cbn; auto.
      apply s_branch_inj_children in Q as [-> ->]. left. reflexivity.
    + rewrite Q in L'. cbn in L'. lia.
  - inversion S' as [Q Q'|a Q Q'|a b Q Q'|ys1 ys2 l' r' L' Hs' X1 X2 Q Q'];
      [subst; rewrite Ln in L; cbn in L; lia..|].
    subst ys u.
    destruct (split_sizes _ _ _ _ Hs Hs' Ln) as [L1 L2].
    destruct (fun I1 I2 => coll (mtpre W d (TSplit l r) ++ mtpre W d (TSplit l' r')) _ _ I1 I2 E)
      as [E'|C]; [left; reflexivity|apply in_or_app; right; left; reflexivity| |right; exact C].
    apply s_branch_inj_children in E' as [E1 E2].
    destruct (IH1 _ _ _ X1 L1 E1) as [->|C].
    + destruct (IH2 _ _ _ X2 L2 E2) as [->|C]; [left; reflexivity|right].
      eapply coll_incl; [|exact C]. cbn. intros x HI. apply in_app_or in HI.
      right. apply in_or_app. cbn. rewrite !in_app_iff. tauto.
    + right. eapply coll_incl; [|exact C]. cbn. intros x HI. apply in_app_or in HI.
      right. apply in_or_app. cbn. rewrite !in_app_iff. tauto.
Qed.

(** Root preimage of a list of other than one leaf *)
Lemma mthash_top W d xs t :
  splits xs t -> length xs <> 1 ->
  (xs = [] /\ t = TVoid) \/ exists a b, mthash W d t = HASH (s_branch d W a b) /\ In (s_branch d W a b) (mtpre W d t).
Proof.
  intros S N. destruct S as [|a|a b|xs1 xs2 l r L Hs S1 S2]; [left; auto|cbn in N; lia|right|right];
    do 2 eexists; (split; [reflexivity|left; reflexivity]).
Qed.

Theorem merklize_binding xs ys r L L' :
  (N.of_nat (length xs) < 2 ^ 32)%N -> (N.of_nat (length ys) < 2 ^ 32)%N ->
  merkle_root_of xs r -> merkle_root_of ys r -> root_hashed xs L -> root_hashed ys L' ->
  (length xs = 1 <-> length ys = 1) ->
  xs = ys \/ collision_in (L ++ L').
Proof.
  intros B1 B2 R1 R2 H1 H2 N1.
  destruct R1 as [a|xs t Nx Sx].
  - inversion R2 as [a' E|? ? Ny]; subst; [left; reflexivity|]. exfalso. apply Ny, N1. reflexivity.
  - inversion R2 as [a' E|ys' u Ny Sy E Er].
    { subst. exfalso. apply Nx, N1. reflexivity. }
    subst ys'.
    inversion H1 as [a E1|xs' t' Nx' Sx' E1 EL]; [subst; cbn in Nx; lia|subst xs'].
    inversion H2 as [a E2|ys' u' Ny' Sy' E2 EL']; [subst; cbn in Ny; lia|subst ys'].
    rewrite <- (splits_fun _ _ Sx _ Sx'). rewrite <- (splits_fun _ _ Sy _ Sy').
    set (Wx := N.of_nat (length xs)) in *. set (Wy := N.of_nat (length ys)) in *.
    assert (B256 : (2 ^ 32 < 2 ^ 256)%N) by reflexivity.
    assert (G : length xs = length ys \/ collision_in ((s_node_tag :: mtpre Wx 0 t) ++ s_node_tag :: mtpre Wy 0 u)).
    { destruct (mthash_top Wx 0 xs t Sx Nx) as [[-> ->]|[a [b [Hx Ix]]]];
      destruct (mthash_top Wy 0 ys u Sy Ny) as [[-> ->]|[a' [b' [Hy Iy]]]].
      - left; reflexivity.
      - rewrite Hy in Er. cbn in Er.
        destruct (fun I1 I2 => coll ((s_node_tag :: [s_void 0 Wx]) ++ s_node_tag :: mtpre Wy 0 u) _ _ I1 I2 Er) as [Q|C].
        + cbn. rewrite ?in_app_iff. tauto.
        + cbn. tauto.
        + symmetry in Q. destruct (s_void_branch _ _ _ _ _ _ Q).
        + right. exact C.
      - rewrite Hx in Er. cbn in Er.
        destruct (fun I1 I2 => coll ((s_node_tag :: mtpre Wx 0 t) ++ s_node_tag :: [s_void 0 Wy]) _ _ I1 I2 Er) as [Q|C].
        + apply in_or_app. cbn. tauto.
        + cbn. rewrite ?in_app_iff. tauto.
        + destruct (s_void_branch _ _ _ _ _ _ Q).
        + right. exact C.
      - rewrite Hx, Hy in Er.
        destruct (fun I1 I2 => coll ((s_node_tag :: mtpre Wx 0 t) ++ s_node_tag :: mtpre Wy 0 u) _ _ I1 I2 Er) as [Q|C].
        + apply in_or_app. cbn. tauto.
        + cbn. rewrite ?in_app_iff. tauto.
        + apply s_branch_inj in Q as [_ [Q _]]; [|lia|lia|lia|lia]. left. unfold Wx, Wy in Q. lia.
        + right. exact C. }
    destruct G as [G|C]; [|right; exact C].
    assert (EW : Wy = Wx) by (unfold Wx, Wy; congruence). rewrite EW in *.
    destruct (mthash_binding Wx xs ys t u 0 Sx Sy G (eq_sym Er)) as [->|C]; [left; reflexivity|right].
    eapply coll_incl; [|exact C]. intros x HI. apply in_app_or in HI. cbn. rewrite !in_app_iff. cbn. tauto.
Qed.

(** ** Powers of two *)
Lemma N_from_S o n : N_from o (S n) = o :: N_from (o + 1)%N n.
Proof.
  unfold N_from. cbn [seq map]. f_equal; [lia|]. rewrite <- seq_shift, map_map.
  apply map_ext. intros i. lia.
Qed.
Lemma N_from_app o a b : N_from o (a + b) = N_from o a ++ N_from (o + N.of_nat a)%N b.
Proof.
  revert o; induction a as [|a IH]; intros o.
  - cbn. rewrite N.add_0_r. reflexivity.
  - cbn [Nat.add]. rewrite !N_from_S, IH. cbn. f_equal. f_equal. f_equal. lia.
Qed.
Lemma N_from_length o n : length (N_from o n) = n.
Proof. unfold N_from. rewrite map_length, seq_length. reflexivity. Qed.
Lemma N_range_from n : N_range n = N_from 0 (N.to_nat n).
Proof. unfold N_range, N_from. apply map_ext. intros i. lia. Qed.
Lemma N_from_In o n x : In x (N_from o n) <-> (o <= x < o + N.of_nat n)%N.
Proof.
  unfold N_from. rewrite in_map_iff. split.
  - intros [i [<- HI]]. apply in_seq in HI. lia.
  - intros L. exists (N.to_nat (x - o)). split; [lia|]. apply in_seq. lia.
Qed.
Lemma pow_to_nat k : N.to_nat (2 ^ N.of_nat k) = 2 ^ k.
Proof.
  induction k as [|k IH]; [reflexivity|]. rewrite Nat2N.inj_succ, N.pow_succ_r', N2Nat.inj_mul, IH.
  cbn. lia.
Qed.
Lemma pow_of_nat k : N.of_nat (2 ^ k) = (2 ^ N.of_nat k)%N.
Proof. rewrite <- pow_to_nat, N2Nat.id. reflexivity. Qed.

Lemma perfect_splits W d k o f t :
  splits (map f (N_from o (2 ^ S k))) t -> mthash W d t = perfect W d (S k) o f.
Proof.
  revert d o t; induction k as [|k IH]; intros d o t S.
  - change (2 ^ 1) with 2 in S. rewrite !N_from_S in S. cbn in S.
    assert (E : t = TTwo (f o) (f (o + 1)%N)) by (eapply splits_fun; [exact S|constructor]).
    subst t. reflexivity.
  - replace (2 ^ Datatypes.S (Datatypes.S k)) with (2 ^ Datatypes.S k + 2 ^ Datatypes.S k) in S by (cbn; lia).
    rewrite N_from_app, map_app in S.
    destruct (splits_exists (map f (N_from o (2 ^ Datatypes.S k)))) as [l Sl].
    destruct (splits_exists (map f (N_from (o + N.of_nat (2 ^ Datatypes.S k))%N (2 ^ Datatypes.S k)))) as [r Sr].
    assert (E : t = TSplit l r).
    { eapply splits_fun; [exact S|]. constructor; [| |exact Sl|exact Sr].
      - rewrite app_length, !map_length, !N_from_length.
        assert (2 <= 2 ^ Datatypes.S k); [|lia]. cbn. pose proof (Nat.pow_nonzero 2 k). lia.
      - rewrite !map_length, !N_from_length. left. reflexivity. }
    subst t. cbn [mthash]. rewrite (IH _ _ _ Sl), (IH _ _ _ Sr), pow_of_nat. reflexivity.
Qed.

Theorem merklize_perfect k f :
  k <= 31 ->
  merklize (map f (N_range (2 ^ N.of_nat k))) = Ret (perfect (2 ^ N.of_nat k) 0 k 0 f).
Proof.
  intros Hk. rewrite N_range_from, pow_to_nat.
  assert (L : length (map f (N_from 0 (2 ^ k))) = 2 ^ k) by (rewrite map_length, N_from_length; reflexivity).
  destruct (merklize_spec (map f (N_from 0 (2 ^ k)))) as [r [E R]].
  - rewrite L, pow_of_nat. apply N.pow_lt_mono_r; lia.
  - rewrite E. f_equal. destruct k as [|k].
    + cbn in R. eapply root_fun; [exact R|constructor].
    + clear E. remember (map f (N_from 0 (2 ^ S k))) as xs eqn:Ex.
      destruct R as [a|xs t N S].
      * cbn in L. pose proof (Nat.pow_nonzero 2 k). lia.
      * rewrite L, pow_of_nat. apply perfect_splits. rewrite <- Ex. exact S.
Qed.

End M.
