(** Theorems: the work of extracting proofs, merging blocks and merklizing. *)
From Verif Require Import Base BaseFacts OrdMap OrdMapFacts Merkle MpcAtoms MpcTree MpcBlock SpecTree SpecBlock SpecDerived SpecValid TreeFacts
  ConcealProofs BlockInv PathProofs MpcTreeProofs DerivedProofs MergeProofs ExtractProofs SpecHash Work Costs TheoremsMpc TheoremsBlock
  TheoremsWork.
Local Open Scope nat_scope.

(** ** C111 *)
Section WithHash.
Context {H : Hasher}.

Lemma counted_proof_ok md b pid : (' (p, _) <- counted_proof md b pid ;; Ret p) = to_merkle_proof md b pid.
Proof.
  unfold counted_proof, to_merkle_proof, conceal_other. pose proof (except_ok md b [pid]) as X.
  destruct (counted_except md b [pid]) as [[[c r] w]|p]; cbn [bind]; [|rewrite X; reflexivity].
  destruct X as [-> _]. cbn [bind]. destruct r; [|reflexivity].
  destruct (path_map md (mb_cross_section c) []); cbn [bind]; [|reflexivity].
  destruct (debug_assert md _); cbn [bind]; [|reflexivity]. destruct (_ <=? 32); reflexivity.
Qed.
Lemma counted_proofs_ok md b : forall ids, (' (p, _) <- counted_proofs md b ids ;; Ret p) = known_proofs md b ids.
Proof.
  induction ids as [|id ids IH]; [reflexivity|]. cbn [counted_proofs known_proofs]. rewrite <- counted_proof_ok.
  destruct (counted_proof md b id) as [[[p|p] w]|q]; cbn [bind]; try reflexivity. rewrite <- IH.
  destruct (counted_proofs md b ids) as [[ps w']|q]; reflexivity.
Qed.
Lemma counted_take_ok D target : forall rest stop bu k,
  let '(t, r) := merge_take D target stop bu rest in
  counted_take D target stop bu rest k = (t, r, (k + N.of_nat (length t))%N) /\ rest = t ++ r.
Proof.
  induction rest as [|n rest IH]; intros stop bu k; cbn [counted_take merge_take].
  - cbn. rewrite N.add_0_r. auto.
  - destruct stop; [cbn; rewrite N.add_0_r; auto|].
    specialize (IH (buoy_level (snd (buoy_push bu (tn_depth_or n D))) <=? target) (snd (buoy_push bu (tn_depth_or n D))) (k + 1)%N).
    destruct (merge_take D target _ _ rest) as [t r]. destruct IH as [-> ->]. cbn [length app]. split; [|reflexivity].
    f_equal. lia.
Qed.

Definition leaves_in (xs : list tree_node) : nat := length (known_leaves xs).
Lemma leaves_app a b : leaves_in (a ++ b) = leaves_in a + leaves_in b.
Proof. unfold leaves_in. induction a as [|[d h|p m] a IH]; cbn [app known_leaves length]; lia. Qed.
Lemma leaves_tl a : leaves_in (tl a) <= leaves_in a.
Proof. destruct a as [|[d h|p m] a]; unfold leaves_in; cbn [tl known_leaves length]; lia. Qed.
Lemma leaves_cons n a : leaves_in (n :: a) = leaves_in [n] + leaves_in a.
Proof. apply (leaves_app [n] a). Qed.

(** what a loop over [la] and [lb] yielding [xs] does to the counters *)
Definition merge_facts (la lb xs : list tree_node) (k p k' p' : N) : Prop :=
  (k <= k' <= k + N.of_nat (length la) /\ k' <= k + N.of_nat (length lb) /\ p <= p' /\
   2 * (k' - k) + (p' - p) <= N.of_nat (length la) + N.of_nat (length lb))%N /\
  length xs <= length la + length lb /\ leaves_in xs <= leaves_in la + leaves_in lb.
Lemma merge_loop_ok D : forall fuel la lb k p,
  match counted_merge_loop fuel D la lb k p with
  | Ret (xs, k', p') => merge_loop fuel D la lb = Ret xs /\ merge_facts la lb xs k p k' p'
  | Panic q => merge_loop fuel D la lb = Panic q
  end.
Proof.
  induction fuel as [|fuel IH]; intros la lb k p; cbn [counted_merge_loop merge_loop]; [reflexivity|].
  destruct la as [|n1 ra].
  { split; [reflexivity|]. unfold merge_facts. cbn [tl app]. pose proof (leaves_tl lb).
    assert (length (tl lb) <= length lb) by (destruct lb; cbn; lia). cbn [length]. repeat split; lia. }
  destruct lb as [|n2 rb].
  { split; [reflexivity|]. unfold merge_facts. cbn [tl app]. rewrite app_nil_r. pose proof (leaves_tl (n1 :: ra)).
    cbn [tl length] in *. repeat split; lia. }
  destruct (Nat.compare (tn_depth_or n1 D) (tn_depth_or n2 D)).
  - assert (X : forall n, n = n1 \/ n = n2 ->
      match (' (r, k', p') <- counted_merge_loop fuel D ra rb (k + 1) p ;; Ret (n :: r, k', p')) with
      | Ret (xs, k', p') => (r <- merge_loop fuel D ra rb ;; Ret (n :: r)) = Ret xs /\
          merge_facts (n1 :: ra) (n2 :: rb) xs k p k' p'
      | Panic q => (r <- merge_loop fuel D ra rb ;; Ret (n :: r)) = Panic q
      end).
    { intros n N. specialize (IH ra rb (k + 1)%N p).
      destruct (counted_merge_loop fuel D ra rb (k + 1) p) as [[[r k'] p']|q]; cbn [bind]; [|rewrite IH; reflexivity].
      destruct IH as [-> F]. split; [reflexivity|]. unfold merge_facts in *. cbn [length].
      rewrite (leaves_cons n r), (leaves_cons n1 ra), (leaves_cons n2 rb). destruct N; subst n; repeat split; lia. }
    destruct (tree_node_eqb n1 n2); [apply X; auto|].
    destruct (tn_is_leaf n1), (tn_is_leaf n2); [reflexivity|apply X; auto|apply X; auto|].
    specialize (IH ra rb (k + 1)%N p).
    destruct (counted_merge_loop fuel D ra rb (k + 1) p) as [[[r k'] p']|q]; [|exact IH].
    destruct IH as [-> F]. split; [reflexivity|]. unfold merge_facts in *. cbn [length].
    rewrite (leaves_cons n1 ra), (leaves_cons n2 rb). repeat split; lia.
  - pose proof (counted_take_ok D (tn_depth_or n1 D) rb false (buoy_new (tn_depth_or n2 D)) p) as T.
    destruct (merge_take D (tn_depth_or n1 D) false (buoy_new (tn_depth_or n2 D)) rb) as [t r0]. destruct T as [-> ->].
    specialize (IH ra r0 (k + 1)%N (p + N.of_nat (length t))%N).
    destruct (counted_merge_loop fuel D ra r0 (k + 1) (p + N.of_nat (length t))) as [[[r k'] p']|q]; cbn [bind]; [|rewrite IH; reflexivity].
    destruct IH as [-> F]. split; [reflexivity|]. unfold merge_facts in *. cbn [length]. rewrite !app_length.
    rewrite (leaves_cons n1 ra), (leaves_cons n2 (t ++ r)), (leaves_cons n2 (t ++ r0)), !leaves_app. repeat split; lia.
  - pose proof (counted_take_ok D (tn_depth_or n2 D) ra false (buoy_new (tn_depth_or n1 D)) p) as T.
    destruct (merge_take D (tn_depth_or n2 D) false (buoy_new (tn_depth_or n1 D)) ra) as [t r0]. destruct T as [-> ->].
    specialize (IH r0 rb (k + 1)%N (p + N.of_nat (length t))%N).
    destruct (counted_merge_loop fuel D r0 rb (k + 1) (p + N.of_nat (length t))) as [[[r k'] p']|q]; cbn [bind]; [|rewrite IH; reflexivity].
    destruct IH as [-> F]. split; [reflexivity|]. unfold merge_facts in *. cbn [length]. rewrite !app_length.
    rewrite (leaves_cons n2 rb), (leaves_cons n1 (t ++ r)), (leaves_cons n1 (t ++ r0)), !leaves_app. repeat split; lia.
Qed.

Lemma counted_merge_ok md a b : (' (c, r, _) <- counted_merge md a b ;; Ret (c, r)) = merge_reveal md a b.
Proof.
  unfold counted_merge, merge_reveal. rewrite <- !commitment_ok.
  destruct (counted_commitment md a) as [[ca w1]|q]; cbn [bind]; [|reflexivity].
  destruct (counted_commitment md b) as [[cb w2]|q]; cbn [bind]; [|reflexivity].
  destruct (negb (b32_eqb ca cb)); [reflexivity|].
  pose proof (merge_loop_ok (mb_depth a) (S (length (mb_cross_section a))) (mb_cross_section a) (mb_cross_section b) 0 0) as M.
  destruct (counted_merge_loop _ _ _ _ _ _) as [[[xs k] p]|q]; cbn [bind]; [|rewrite M; reflexivity].
  destruct M as [-> _]. cbn [bind]. destruct xs as [|x xs]; [reflexivity|].
  destruct (assert _); cbn [bind]; [|reflexivity]. destruct (span_sum _ _ _ _); cbn [bind]; [|reflexivity].
  destruct (assert _); cbn [bind]; [|reflexivity]. rewrite <- commitment_ok.
  destruct (counted_commitment _ _) as [[cc w3]|q]; cbn [bind]; [|reflexivity]. destruct (assert _); reflexivity.
Qed.

Lemma counted_merklize_rec_ok : forall fuel iter d bw base k,
  (' (c, _) <- counted_merklize_rec fuel iter d bw base k ;; Ret c) = merklize_rec fuel iter d bw base.
Proof.
  induction fuel as [|fuel IH]; intros iter d bw base k; cbn [counted_merklize_rec merklize_rec]; [reflexivity|].
  destruct (bw <=? 2)%N; [destruct iter as [|? [|? ?]]; reflexivity|].
  destruct (u5_add d 1); cbn [bind]; [|reflexivity].
  match goal with |- context [merklize_rec fuel (firstn ?x ?y) ?z ?u ?v] => rewrite <- (IH (firstn x y) z u v k) end.
  destruct (counted_merklize_rec _ _ _ _ _ _) as [[b1 k1]|q]; cbn [bind]; [|reflexivity].
  match goal with |- context [merklize_rec fuel (skipn ?x ?y) ?z ?u ?v] => rewrite <- (IH (skipn x y) z u v k1) end.
  destruct (counted_merklize_rec _ _ _ _ _ _) as [[b2 k2]|q]; reflexivity.
Qed.

(** the hashing of a commitment *)
Lemma commitment_hashed md b c w : counted_commitment md b = Ret (c, w) ->
  (w_hashed w <= N.of_nat (leaves_in (mb_cross_section b) + length (mb_cross_section b)))%N /\
  (md = Debug \/ wf_block b ->
    w_hashed w = N.of_nat (leaves_in (mb_cross_section b) + length (mb_cross_section b))).
Proof.
  unfold counted_commitment. intros E. apply bind_inv in E as [[[b' r] w'] [E0 E]]. pose proof (except_ok md b []) as X.
  rewrite E0 in X. destruct X as [X0 X]. destruct r as [n|]; [|discriminate].
  destruct X as [X1 [xs [k [xs' [A [_ [_ [Ek [B X]]]]]]]]].
  pose proof (loop_ok md (mb_depth b) (S (length xs)) xs k (Work 0 0 k 0)) as L. rewrite X in L. destruct L as [_ [_ L]].
  assert (KL : k = N.of_nat (leaves_in (mb_cross_section b))).
  { rewrite Ek. unfold dropped, leaves_in. do 2 f_equal. generalize (known_leaves (mb_cross_section b)). clear.
    induction l as [|y l IH]; [reflexivity|]. cbn [filter]. rewrite IH. reflexivity. }
  apply bind_inv in E as [u [DA E]].
  assert (EW : w_hashed w = (w_hashed w' + 1)%N).
  { destruct (mb_cross_section b') as [|[[|?] ?|? ?] ?]; try discriminate. injection E as _ <-. reflexivity. }
  assert (NE : xs <> []).
  { intros ->. apply bind_inv in X as [u' [_ X]]. cbn [counted_pass w_looks w_hashed w_moved] in X. cbn [bind] in X.
    rewrite N.eqb_refl in X. injection X as <- _ _. rewrite B in E. discriminate. }
  destruct (L NE) as [L1 [_ [L2 _]]]. cbn [w_hashed] in L2. rewrite EW, L2, KL, A. split; [lia|]. intros C.
  assert (L' : length xs' = 1); [|lia]. rewrite <- B. destruct C as [->|[t BT]].
  - cbn [debug_assert] in DA. destruct (length (mb_cross_section b') =? 1) eqn:Q; [apply Nat.eqb_eq, Q|discriminate].
  - destruct (wf_conceal md b t [] BT ltac:(intros ? [])) as [C _]. rewrite X0 in C. injection C as -> _. cbn [mb_cross_section].
    assert (Z : forall W s d, exists h, prestrict (mem []) W d s = PConc h).
    { clear. intros W s. induction s as [h|p m|l IHl r IHr]; intros d; cbn [prestrict].
      - eexists. reflexivity.
      - change (mem [] p) with false. eexists. reflexivity.
      - replace (existsb _ _) with false; [eexists; reflexivity|]. symmetry.
        generalize (pleaves (PBr l r)). intros k. induction k; [reflexivity|exact IHk]. }
    destruct (Z (width_of (mb_depth b)) t 0) as [h ->]. reflexivity.
Qed.
End WithHash.

Lemma c111_same : forall (H : Hasher) md,
  (forall b p, (' (r, _) <- counted_proof md b p ;; Ret r) = to_merkle_proof md b p) /\
  (forall b, (' (r, _) <- counted_proofs md b (known_protocol_ids b) ;; Ret r) = into_known_proofs md b) /\
  (forall t, (' (r, _) <- counted_tree_proofs md t ;; Ret r) = into_proofs md t) /\
  (forall a b, (' (c, r, _) <- counted_merge md a b ;; Ret (c, r)) = merge_reveal md a b) /\
  (forall l, (' (c, _) <- counted_merklize l ;; Ret c) = merklize l).
Proof.
  intros H md. split; [apply counted_proof_ok|]. split; [intros b; apply counted_proofs_ok|]. split; [|split; [apply counted_merge_ok|]].
  - intros t. unfold into_proofs, into_known_proofs. rewrite <- counted_proofs_ok. unfold counted_tree_proofs.
    destruct (counted_proofs _ _ _) as [[ps w]|q]; reflexivity.
  - intros l. unfold counted_merklize, merklize. destruct (_ <? u32_lim)%N; [|reflexivity].
    destruct (_ =? 1)%N; [destruct l; reflexivity|]. apply counted_merklize_rec_ok.
Qed.

Lemma merge_run {H : Hasher} md a b c r w k p : counted_merge md a b = Ret (c, r, (w, k, p)) ->
  match r with
  | Err _ => k = 0%N /\ p = 0%N
  | Ok _ => exists ca cb cc w1 w2 w3, counted_commitment md a = Ret (ca, w1) /\ counted_commitment md b = Ret (cb, w2) /\
      counted_commitment md c = Ret (cc, w3) /\ w_hashed w = (w_hashed w1 + w_hashed w2 + w_hashed w3)%N /\
      merge_facts (mb_cross_section a) (mb_cross_section b) (mb_cross_section c) 0 0 k p
  end.
Proof.
  unfold counted_merge. intros E. apply bind_inv in E as [[ca w1] [E1 E]]. apply bind_inv in E as [[cb w2] [E2 E]].
  destruct (negb (b32_eqb ca cb)); [injection E as <- <- <- <- <-; auto|].
  apply bind_inv in E as [[[xs k0] p0] [EM E]].
  pose proof (merge_loop_ok (mb_depth a) (S (length (mb_cross_section a))) (mb_cross_section a) (mb_cross_section b) 0 0) as M.
  rewrite EM in M. destruct M as [_ M]. destruct xs as [|x xs]; [discriminate|].
  apply bind_inv in E as [u1 [_ E]]. apply bind_inv in E as [s [_ E]]. apply bind_inv in E as [u2 [_ E]].
  apply bind_inv in E as [[cc w3] [E3 E]]. apply bind_inv in E as [u3 [_ E]]. injection E as <- <- <- <- <-.
  exists ca, cb, cc, w1, w2, w3. auto.
Qed.

Lemma c111_merge_any : forall (H : Hasher) md a b c r w rounds pushes na nb
  (sizes : na = N.of_nat (length (mb_cross_section a)) /\ nb = N.of_nat (length (mb_cross_section b)))
  (run : counted_merge md a b = Ret (c, r, (w, rounds, pushes))),
  (rounds <= na /\ rounds <= nb /\ 2 * rounds + pushes <= na + nb)%N.
Proof.
  intros H md a b c r w k p na nb [-> ->] R. apply merge_run in R. destruct r as [n|e]; [|destruct R as [-> ->]; lia].
  destruct R as [ca [cb [cc [w1 [w2 [w3 [_ [_ [_ [_ [M _]]]]]]]]]]]. lia.
Qed.
Lemma c111_merge : forall (H : Hasher) md a b c n w rounds pushes
  (run : counted_merge md a b = Ret (c, Ok n, (w, rounds, pushes))),
  let size x := N.of_nat (length (known_leaves (mb_cross_section x)) + length (mb_cross_section x)) in
  (size c <= size a + size b)%N /\
  (w_hashed w <= size a + size b + size c)%N /\
  (md = Debug \/ (wf_block a /\ wf_block b /\ wf_block c) -> w_hashed w = (size a + size b + size c)%N).
Proof.
  intros H md a b c n w k p R. cbv zeta. apply merge_run in R.
  destruct R as [ca [cb [cc [w1 [w2 [w3 [E1 [E2 [E3 [-> [_ [M1 M2]]]]]]]]]]]].
  apply commitment_hashed in E1 as [L1 Q1]. apply commitment_hashed in E2 as [L2 Q2]. apply commitment_hashed in E3 as [L3 Q3].
  unfold leaves_in in *. split; [lia|]. split; [lia|]. intros C. rewrite Q1, Q2, Q3 by tauto. reflexivity.
Qed.

Lemma counted_loop_tree {H : Hasher} D W a b d :
  pcompat W d a b -> pwf D d a -> pwf D d b ->
  exists j i, j <= length (flatten d a) /\ j + length (flatten d (pjoin a b)) = length (flatten d a) + length (flatten d b) /\
    i + j = length (flatten d (pjoin a b)) /\ forall fuel ra rb k p,
    counted_merge_loop (j + fuel) D (flatten d a ++ ra) (flatten d b ++ rb) k p =
    (' (r, k', p') <- counted_merge_loop fuel D ra rb (k + N.of_nat j) (p + N.of_nat i) ;;
     Ret (flatten d (pjoin a b) ++ r, k', p')).
Proof.
  revert d b; induction a as [h|q m|l IHl r IHr]; intros d b C Wa Wb.
  - destruct b as [h'|q' m'|l' r'].
    + cbn in C. subst h'. exists 1, 0. do 3 (split; [cbn; lia|]). intros fuel ra rb k p. rewrite N.add_0_r.
      cbn [Nat.add flatten app counted_merge_loop tn_depth_or tn_depth pjoin].
      rewrite Nat.compare_refl. rewrite tree_node_eqb_refl. reflexivity.
    + exists 1, 0. do 3 (split; [cbn; lia|]). intros fuel ra rb k p. rewrite N.add_0_r. cbn in Wb. subst d.
      cbn [Nat.add flatten app counted_merge_loop tn_depth_or tn_depth pjoin].
      rewrite Nat.compare_refl. reflexivity.
    + destruct (flatten_br D d l' r' Wb) as [n [ns [E [L [N Cl]]]]].
      exists 1, (length ns). cbn [pjoin]. rewrite E. do 3 (split; [cbn; lia|]). intros fuel ra rb k p.
      cbn [Nat.add flatten app counted_merge_loop].
      change (tn_depth_or (ConcealedNode d h) D) with d.
      replace (Nat.compare d (tn_depth_or n D)) with Datatypes.Lt by (symmetry; apply Nat.compare_lt_iff; exact L).
      pose proof (counted_take_ok D d (ns ++ rb) false (buoy_new (tn_depth_or n D)) p) as T.
      rewrite (merge_take_climbs D d _ ns rb Cl N) in T. destruct T as [-> _]. reflexivity.
  - destruct b as [h'|q' m'|l' r'].
    + exists 1, 0. do 3 (split; [cbn; lia|]). intros fuel ra rb k p. rewrite N.add_0_r. cbn in Wa. subst d.
      cbn [Nat.add flatten app counted_merge_loop tn_depth_or tn_depth pjoin].
      rewrite Nat.compare_refl. reflexivity.
    + cbn in C. destruct C as [<- <-]. exists 1, 0. do 3 (split; [cbn; lia|]). intros fuel ra rb k p. rewrite N.add_0_r.
      cbn [Nat.add flatten app counted_merge_loop tn_depth_or tn_depth pjoin].
      rewrite Nat.compare_refl. rewrite tree_node_eqb_refl. reflexivity.
    + destruct C.
  - destruct b as [h'|q' m'|l' r'].
    + destruct (flatten_br D d l r Wa) as [n [ns [E [L [N Cl]]]]].
      exists 1, (length ns). cbn [pjoin]. rewrite E. do 3 (split; [cbn; lia|]). intros fuel ra rb k p.
      cbn [Nat.add flatten app counted_merge_loop].
      change (tn_depth_or (ConcealedNode d h') D) with d.
      replace (Nat.compare (tn_depth_or n D) d) with Datatypes.Gt by (symmetry; apply Nat.compare_gt_iff; exact L).
      pose proof (counted_take_ok D d (ns ++ ra) false (buoy_new (tn_depth_or n D)) p) as T.
      rewrite (merge_take_climbs D d _ ns ra Cl N) in T. destruct T as [-> _]. reflexivity.
    + destruct C.
    + cbn [pcompat] in C. destruct C as [C1 C2]. destruct Wa as [W1 W2], Wb as [W3 W4].
      destruct (IHl _ _ C1 W1 W3) as [j1 [i1 [A1 [B1 [D1 E1]]]]]. destruct (IHr _ _ C2 W2 W4) as [j2 [i2 [A2 [B2 [D2 E2]]]]].
      exists (j1 + j2), (i1 + i2). cbn [pjoin flatten]. rewrite !app_length. do 3 (split; [lia|]). intros fuel ra rb k p.
      rewrite <- !app_assoc, <- Nat.add_assoc, E1, E2, !Nat2N.inj_add, !N.add_assoc.
      destruct (counted_merge_loop _ _ _ _ _ _) as [[[x k'] p']|e]; cbn [bind]; [|reflexivity]. rewrite app_assoc. reflexivity.
Qed.
Lemma c111_rounds : forall (H : Hasher) md a b ta tb x c n w rounds pushes
  (formed : block_tree a ta /\ block_tree b tb)
  (ids : block_commit_id md a = Ret x /\ block_commit_id md b = Ret x)
  (run : counted_merge md a b = Ret (c, Ok n, (w, rounds, pushes))),
  let size y := N.of_nat (length (mb_cross_section y)) in
  (rounds + size c = size a + size b /\ pushes + rounds = size c)%N \/
  collision_in (pcommit_pre (mb_depth a) (mb_cofactor a) ta ++ pcommit_pre (mb_depth b) (mb_cofactor b) tb).
Proof.
  intros H md a b ta tb x c n w k p [B1 B2] [I1 I2] R. cbv zeta.
  rewrite (wf_commit md a ta B1) in I1. rewrite (wf_commit md b tb B2) in I2.
  assert (EQ : pcommit (mb_depth a) (mb_cofactor a) ta = pcommit (mb_depth b) (mb_cofactor b) tb) by congruence.
  destruct (merge_reveal_equal a b ta tb B1 B2 EQ) as [[ED [EC CP]]|Co]; [left|right; exact Co].
  unfold counted_merge in R. apply bind_inv in R as [[ca w1] [_ R]]. apply bind_inv in R as [[cb w2] [_ R]].
  destruct (negb (b32_eqb ca cb)); [discriminate|]. apply bind_inv in R as [[[xs k0] p0] [EM R]].
  destruct xs as [|y xs]; [discriminate|]. apply bind_inv in R as [u1 [_ R]]. apply bind_inv in R as [s [_ R]].
  apply bind_inv in R as [u2 [_ R]]. apply bind_inv in R as [[cc w3] [_ R]]. apply bind_inv in R as [u3 [_ R]].
  injection R as <- _ _ <- <-. cbn [with_cross_section mb_cross_section].
  destruct B1 as [D1 [_ [X1 W1]]]. destruct B2 as [_ [_ [X2 W2]]]. rewrite <- ED in W2.
  destruct (counted_loop_tree (mb_depth a) _ ta tb 0 CP W1 W2) as [j [i [A [B [C E]]]]].
  rewrite X1, X2 in *. specialize (E (S (length (flatten 0 ta)) - j) [] [] 0%N 0%N). rewrite !app_nil_r in E.
  replace (j + (S (length (flatten 0 ta)) - j)) with (S (length (flatten 0 ta))) in E by lia.
  rewrite E in EM. destruct (S (length (flatten 0 ta)) - j) eqn:Q; [lia|]. cbn [counted_merge_loop tl app bind] in EM.
  rewrite app_nil_r in EM. injection EM as <- <- <-. lia.
Qed.

Lemma c111_proof : forall (H : Hasher) md b p
  (wf : wf_block b) (once : count_occ b32_eq_dec (known_protocol_ids b) p = 1),
  exists pf w, counted_proof md b p = Ret (Ok pf, w) /\
    (w_hashed w + 2 + N.of_nat (mb_depth b) =
     N.of_nat (length (known_leaves (mb_cross_section b)) + length (mb_cross_section b)) /\
     w_passes w <= N.of_nat (mb_depth b) + 1 /\
     w_looks w <= (N.of_nat (mb_depth b) + 1) * N.of_nat (length (mb_cross_section b)))%N.
Proof.
  intros H md b p [t BT] C.
  assert (IP : In p (known_protocol_ids b)) by (apply (count_occ_In b32_eq_dec); lia).
  assert (IQ : exists q m, In (q, (p, m)) (pleaves_at (mb_depth b) 0 0 t)).
  { rewrite (wf_known b t BT), <- (pleaves_at_leaves (mb_depth b) 0 0 t), map_map in IP.
    apply in_map_iff in IP as [[q [p' m]] [Q I]]. cbn in Q. subst p'. exists q, m. exact I. }
  destruct IQ as [q [m IQ]]. destruct (extract_once md b t p m q BT IQ C) as [path [Lp [ER E]]].
  rewrite <- counted_proof_ok in E. destruct (counted_proof md b p) as [[r w]|x] eqn:R; [|discriminate].
  cbn [bind] in E. injection E as ->. eexists. exists w. split; [reflexivity|].
  unfold counted_proof in R. apply bind_inv in R as [[[b' r] w'] [R0 R]].
  pose proof (except_ok md b [p]) as X. rewrite R0 in X. destruct X as [X0 X]. destruct r as [n|]; [|discriminate].
  destruct X as [X _].
  assert (W : w' = w).
  { apply bind_inv in R as [? [_ R]]. apply bind_inv in R as [? [_ R]]. destruct (_ <=? 32); [|discriminate]. congruence. }
  subst w'. destruct (c104_formed _ _ _ _ _ _ _ (ex_intro _ t BT) R0) as [P1 P2]. split; [|auto].
  destruct (c11_count _ _ _ _ _ _ (ex_intro _ t BT) X0) as [C1 [C2 C3]]. rewrite X, C3.
  destruct (wf_conceal md b t [p] BT) as [W WB]; [intros y [<-|[]]; exact IP|]. rewrite X0 in W. injection W as -> _.
  rewrite (wf_leaves _ _ WB) in C2. rewrite (wf_leaves _ _ WB) in *. cbn [mb_cross_section] in *. rewrite ER in *.
  assert (P3 : length (pleaves (path_tree path q p m)) = 1).
  { clear. revert q. induction path as [|h r IH]; intros q; cbn [path_tree]; [reflexivity|].
    destruct (_ <=? q)%N; cbn [pleaves app]; [|rewrite app_nil_r]; apply IH. }
  rewrite path_length, Lp in *. rewrite P3 in *. lia.
Qed.

Lemma c111_proofs : forall (H : Hasher) md b k n
  (wf : wf_block b) (distinct : NoDup (known_protocol_ids b))
  (sizes : k = N.of_nat (length (known_leaves (mb_cross_section b))) /\ n = N.of_nat (length (mb_cross_section b))),
  exists ps w, counted_proofs md b (known_protocol_ids b) = Ret (ps, w) /\
    w_hashed w = (k * (k + n - 2 - N.of_nat (mb_depth b)))%N.
Proof.
  intros H md b k n wf ND [-> ->].
  assert (X : forall ids, incl ids (known_protocol_ids b) -> exists ps w, counted_proofs md b ids = Ret (ps, w) /\
    w_hashed w = (N.of_nat (length ids) * (N.of_nat (length (known_leaves (mb_cross_section b))) +
      N.of_nat (length (mb_cross_section b)) - 2 - N.of_nat (mb_depth b)))%N).
  { induction ids as [|p ids IH]; intros I; [exists [], work_none; split; reflexivity|].
    destruct IH as [ps [w [E1 E2]]]; [intros y Y; apply I; right; exact Y|].
    destruct (c111_proof H md b p wf) as [pf [w1 [E3 [E4 _]]]].
    { apply (proj1 (NoDup_count_occ' b32_eq_dec _) ND). apply I. left. reflexivity. }
    cbn [counted_proofs]. rewrite E3. cbn [bind]. rewrite E1. cbn [bind]. eexists. eexists. split; [reflexivity|].
    cbn [work_add w_hashed length]. rewrite E2, Nat2N.inj_succ, N.mul_succ_l. lia. }
  destruct (X _ (incl_refl _)) as [ps [w [E1 E2]]]. exists ps, w. split; [exact E1|].
  rewrite E2. unfold known_protocol_ids. rewrite map_length. reflexivity.
Qed.

Lemma c111_tree : forall (H : Hasher) md src rng t d m
  (valid : valid_source src) (made : try_commit src rng = Ret (Ok t))
  (sizes : d = N.of_nat (mt_depth t) /\ m = N.of_nat (length (ms_messages src))),
  exists ps w, counted_tree_proofs md t = Ret (ps, w) /\ (m <= 2 ^ d)%N /\
    w_hashed w = ((2 ^ d - m) + m * ((m - 1) + (2 ^ d - 1 - d)))%N.
Proof.
  intros H md src rng t d m V E [-> ->]. pose proof (try_commit_good _ _ _ V E) as G.
  destruct (c31_tree_proofs H md src rng t V E) as [ps [c [P1 [_ [P3 [P4 _]]]]]].
  destruct (c31_known_proofs H md src rng t (block_of_tree t) V E (dv_tree md t)) as [ps' [c' [A1 [_ [A3 _]]]]].
  cbv zeta in A3. unfold into_proofs in P1. rewrite P1 in A1. injection A1 as <-.
  assert (LM : length (known_leaves (mb_cross_section (block_of_tree t))) = length (ms_messages src)).
  { rewrite <- (map_length fst), <- A3, <- (map_length fst (ms_messages src)).
    apply Permutation.Permutation_length, Permutation.NoDup_Permutation; [exact P4| |exact P3].
    apply (om_sorted_NoDup b32_ltb), V. }
  destruct (derived_view md t _ G (dv_tree md t)) as [pt VB]. pose proof VB as [BT [_ [Vd _]]].
  set (g := fun pos => match om_get N.ltb pos (mt_map t) with
            | Some (p, m) => CommitmentLeaf p m
            | None => ConcealedNode (mt_depth t) (leaf_commit_id (Entropy (mt_entropy t) pos)) end).
  assert (BX : mb_cross_section (block_of_tree t) = map g (N_range (mt_width_limit t))) by reflexivity.
  pose proof (leaf_count (fun pos => om_get N.ltb pos (mt_map t)) g (N_range (mt_width_limit t))) as LC.
  assert (RL : N.of_nat (length (N_range (mt_width_limit t))) = (2 ^ N.of_nat (mt_depth t))%N).
  { unfold N_range, mt_width_limit, width_of. rewrite map_length, seq_length, N2Nat.id. reflexivity. }
  rewrite RL, <- BX in LC.
  assert (LC2 := LC ltac:(intros y _; unfold g; destruct (om_get N.ltb y (mt_map t)) as [[? ?]|]; reflexivity)
                    ltac:(intros y _ Z; unfold g; rewrite Z; exact Logic.I)). clear LC.
  assert (DR : dropped [] (mb_cross_section (block_of_tree t)) = N.of_nat (length (ms_messages src))).
  { rewrite <- LM. unfold dropped. do 2 f_equal. generalize (known_leaves (mb_cross_section (block_of_tree t))). clear.
    induction l as [|y l IH]; [reflexivity|]. cbn [filter]. rewrite IH. reflexivity. }
  rewrite DR in LC2.
  assert (ND : NoDup (known_protocol_ids (block_of_tree t))) by (unfold known_protocol_ids; rewrite <- A3; exact P4).
  destruct (c111_proofs H md (block_of_tree t) _ _ (ex_intro _ pt BT) ND (conj eq_refl eq_refl)) as [ps2 [w [E1 E2]]].
  unfold counted_tree_proofs. rewrite E1. cbn [bind]. eexists. eexists. split; [reflexivity|]. split; [lia|].
  cbn [work_add w_hashed]. rewrite E2, LM, BX, map_length, RL. change (mb_depth (block_of_tree t)) with (mt_depth t).
  pose proof (N.pow_gt_lin_r 2 (N.of_nat (mt_depth t)) ltac:(lia)) as PG.
  destruct (N.eq_dec (N.of_nat (length (ms_messages src))) 0) as [Z|NZ]; [rewrite Z in *; rewrite !N.mul_0_l; lia|].
  match goal with |- (?a * ?x + ?y = ?u + ?a * ?z)%N => replace x with z by lia; lia end.
Qed.

Lemma merklize_count {H : Hasher} : forall j fuel iter d bw base k c k',
  length iter = N.to_nat bw -> (2 ^ N.of_nat (S j) <= bw <= 2 ^ N.of_nat (S (S j)))%N ->
  counted_merklize_rec fuel iter d bw base k = Ret (c, k') ->
  (k' + 1 = k + N.min (2 * bw - 2 ^ N.of_nat (S j)) (2 ^ N.of_nat (S (S j))))%N.
Proof.
  assert (one : forall fuel iter d bw base k c k', (1 <= bw <= 2)%N -> length iter = N.to_nat bw ->
    counted_merklize_rec fuel iter d bw base k = Ret (c, k') -> (k' = k + 1)%N).
  { intros fuel iter d bw base k c k' B L E. destruct fuel; [discriminate|]. cbn [counted_merklize_rec] in E.
    replace (bw <=? 2)%N with true in E by (symmetry; apply N.leb_le; lia).
    destruct iter as [|? [|? ?]]; injection E as _ <-; reflexivity. }
  assert (split : forall fuel iter d bw base k c k', (2 < bw)%N -> length iter = N.to_nat bw ->
    counted_merklize_rec fuel iter d bw base k = Ret (c, k') ->
    exists fuel' i1 i2 d1 d2 a b c1 c2 k1 k2, counted_merklize_rec fuel' i1 d1 a base k = Ret (c1, k1) /\
      counted_merklize_rec fuel' i2 d2 b base k1 = Ret (c2, k2) /\ k' = (k2 + 1)%N /\
      length i1 = N.to_nat a /\ length i2 = N.to_nat b /\ (a + b = bw)%N /\ (b <= a <= b + 1)%N).
  { intros fuel iter d bw base k c k' B L E. destruct fuel as [|fuel]; [discriminate|]. cbn [counted_merklize_rec] in E.
    replace (bw <=? 2)%N with false in E by (symmetry; apply N.leb_gt; lia). cbv zeta in E.
    apply bind_inv in E as [d1 [_ E]]. apply bind_inv in E as [[c1 k1] [E1 E]]. apply bind_inv in E as [d2 [_ E]].
    apply bind_inv in E as [[c2 k2] [E2 E]]. injection E as _ <-.
    pose proof (N.div_mod bw 2 ltac:(lia)) as DM. pose proof (N.mod_lt bw 2 ltac:(lia)) as ML.
    do 4 eexists. do 7 eexists. split; [exact E1|]. split; [exact E2|]. split; [reflexivity|].
    rewrite firstn_length, skipn_length, L. clear - DM ML B. generalize dependent (bw / 2)%N. generalize dependent (bw mod 2)%N.
    intros r R q Q. split; [lia|]. split; [lia|]. lia. }
  induction j as [|j IH]; intros fuel iter d bw base k c k' L B E.
  - change (2 ^ N.of_nat 1)%N with 2%N in *. change (2 ^ N.of_nat 2)%N with 4%N in *.
    destruct (N.eq_dec bw 2) as [->|N2]; [apply one in E; [lia|lia|exact L]|].
    apply split in E as [f' [i1 [i2 [d1 [d2 [a [b [c1 [c2 [k1 [k2 [E1 [E2 [-> [L1 [L2 AB]]]]]]]]]]]]]]]]; [|lia|exact L].
    apply one in E1; [|lia|exact L1]. apply one in E2; [|lia|exact L2]. lia.
  - pose proof (N.pow_nonzero 2 (N.of_nat j) ltac:(lia)).
    repeat rewrite (Nat2N.inj_succ (S _)) in *. repeat rewrite Nat2N.inj_succ in *. rewrite !N.pow_succ_r' in *.
    apply split in E as [f' [i1 [i2 [d1 [d2 [a [b [c1 [c2 [k1 [k2 [E1 [E2 [-> [L1 [L2 AB]]]]]]]]]]]]]]]]; [|lia|exact L].
    apply IH in E1; [|exact L1|lia]. apply IH in E2; [|exact L2|lia]. lia.
Qed.
Lemma c111_merklize : forall (H : Hasher) l c k j
  (level : (2 ^ j <= N.of_nat (length l) < 2 ^ (j + 1))%N) (run : counted_merklize l = Ret (c, k)),
  (k + 1 = N.min (2 * N.of_nat (length l) - 2 ^ j) (2 ^ (j + 1)))%N.
Proof.
  intros H l c k j B E. unfold counted_merklize in E. destruct (_ <? u32_lim)%N; [|discriminate].
  destruct (N.of_nat (length l) =? 1)%N eqn:E1.
  - apply N.eqb_eq in E1. destruct l; [discriminate|]. injection E as _ <-. rewrite E1 in *.
    destruct (N.eq_dec j 0) as [->|NJ]; [reflexivity|].
    assert (2 ^ 1 <= 2 ^ j)%N by (apply N.pow_le_mono_r; lia). change (2 ^ 1)%N with 2%N in *. lia.
  - apply N.eqb_neq in E1. assert (NJ : (j <> 0)%N).
    { intros ->. change (2 ^ 0)%N with 1%N in B. change (2 ^ (0 + 1))%N with 2%N in B. lia. }
    replace j with (N.of_nat (S (N.to_nat j - 1))) in * by lia.
    replace (N.of_nat (S (N.to_nat j - 1)) + 1)%N with (N.of_nat (S (S (N.to_nat j - 1)))) in * by lia.
    apply (merklize_count (N.to_nat j - 1)) in E; [|rewrite Nat2N.id; reflexivity|]; lia.
Qed.
Lemma c111_linear : forall (H : Hasher) l c k n (size : n = N.of_nat (length l)) (several : (2 <= n)%N)
  (run : counted_merklize l = Ret (c, k)),
  (n - 1 <= k /\ 3 * k + 3 <= 4 * n)%N.
Proof.
  intros H l c k n -> S E. pose proof (N.log2_spec (N.of_nat (length l)) ltac:(lia)) as B. rewrite <- N.add_1_r in B.
  pose proof (c111_merklize H l c k _ B E) as X. 
  rewrite (N.add_1_r (N.log2 _)), N.pow_succ_r' in X, B. lia.
Qed.

(** Nothing is lost between the parts: every counter of the whole is the sum of the counters of its parts. *)
Lemma c111_sum : forall (H : Hasher) md,
  let counters := [w_passes; w_looks; w_hashed; w_moved] in
  (forall b ids ps w (run : counted_proofs md b ids = Ret (ps, w)), exists ws,
     map fst ps = ids /\ Forall2 (fun x u => counted_proof md b (fst x) = Ret (Ok (snd x), u)) ps ws /\
     forall count, In count counters -> count w = fold_right N.add 0%N (map count ws)) /\
  (forall a b c n w rounds pushes (run : counted_merge md a b = Ret (c, Ok n, (w, rounds, pushes))), exists x wa wb wc,
     counted_commitment md a = Ret (x, wa) /\ counted_commitment md b = Ret (x, wb) /\ counted_commitment md c = Ret (x, wc) /\
     forall count, In count counters -> count w = (count wa + count wb + count wc)%N) /\
  (forall a b c e w rounds pushes (run : counted_merge md a b = Ret (c, Err e, (w, rounds, pushes))), exists x y wa wb,
     counted_commitment md a = Ret (x, wa) /\ counted_commitment md b = Ret (y, wb) /\ x <> y /\
     forall count, In count counters -> count w = (count wa + count wb)%N).
Proof.
  intros H md counters. split; [|split].
  - intros b. induction ids as [|p ids IH]; intros ps w R; cbn [counted_proofs] in R.
    + injection R as <- <-. exists []. split; [reflexivity|]. split; [constructor|]. intros k [<-|[<-|[<-|[<-|[]]]]]; reflexivity.
    + apply bind_inv in R as [[[pf|e] u] [E R]]; [|discriminate]. apply bind_inv in R as [[ps' w'] [E' R]]. injection R as <- <-.
      destruct (IH _ _ E') as (ws & F & G & K). exists (u :: ws). split; [cbn; rewrite F; reflexivity|].
      split; [constructor; [exact E|exact G]|]. intros k I. pose proof (K k I) as Q. cbn [map fold_right]. rewrite <- Q.
      destruct I as [<-|[<-|[<-|[<-|[]]]]]; reflexivity.
  - intros a b c n w k p R. unfold counted_merge in R. apply bind_inv in R as [[x wa] [E1 R]]. apply bind_inv in R as [[y wb] [E2 R]].
    destruct (b32_eqb x y) eqn:Q; cbn [negb] in R; [|discriminate]. apply b32_eqb_eq in Q. subst y.
    apply bind_inv in R as [[[xs k0] p0] [_ R]]. destruct xs as [|z xs]; [discriminate|].
    apply bind_inv in R as [u1 [_ R]]. apply bind_inv in R as [s [_ R]]. apply bind_inv in R as [u2 [_ R]].
    apply bind_inv in R as [[cc wc] [E3 R]]. apply bind_inv in R as [u3 [A R]]. injection R as <- <- <- <- <-.
    destruct (b32_eqb x cc) eqn:Q; [|discriminate]. apply b32_eqb_eq in Q. subst cc.
    exists x, wa, wb, wc. split; [exact E1|split; [exact E2|split; [exact E3|]]].
    intros k' [<-|[<-|[<-|[<-|[]]]]]; reflexivity.
  - intros a b c n w k p R. unfold counted_merge in R. apply bind_inv in R as [[x wa] [E1 R]]. apply bind_inv in R as [[y wb] [E2 R]].
    destruct (b32_eqb x y) eqn:Q; cbn [negb] in R.
    { exfalso. apply bind_inv in R as [[[xs k0] p0] [_ R]]. destruct xs as [|z xs]; [discriminate|].
      apply bind_inv in R as [u1 [_ R]]. apply bind_inv in R as [s [_ R]]. apply bind_inv in R as [u2 [_ R]].
      apply bind_inv in R as [[cc wc] [E3 R]]. apply bind_inv in R as [u3 [A R]]. discriminate. }
    injection R as <- <- <- <- <-. exists x, y, wa, wb. split; [exact E1|split; [exact E2|split]].
    + intros ->. rewrite b32_eqb_refl in Q. discriminate.
    + intros k' [<-|[<-|[<-|[<-|[]]]]]; reflexivity.
Qed.
(** A proof which is refused costs the ids of the leaves shown, and no pass over the nodes. *)
Lemma c111_refused : forall (H : Hasher) md b p q w (run : counted_proof md b p = Ret (Err q, w)),
  q = p /\ ~ In p (known_protocol_ids b) /\
  w = Work 0 0 (N.of_nat (length (known_leaves (mb_cross_section b)))) 0.
Proof.
  intros H md b p q w R. unfold counted_proof in R. apply bind_inv in R as [[[c [n|e]] u] [E R]].
  { apply bind_inv in R as [x [_ R]]. apply bind_inv in R as [y [_ R]]. destruct (length x <=? 32); discriminate. }
  injection R as <- <-. pose proof (c104_hashed H md b [p] c _ _ E) as [W1 [W2 [W3 W4]]].
  pose proof (except_ok md b [p]) as X. rewrite E in X. destruct X as [X _]. rewrite conceal_except_unfold in X.
  destruct (missing [p] (mb_cross_section b)) as [|z l] eqn:M.
  { apply bind_inv in X as [[xs k] [_ X]]. discriminate. }
  injection X as _ ->. assert (I : In e (missing [p] (mb_cross_section b))) by (rewrite M; left; reflexivity).
  apply missing_In in I as [[<-|[]] N]. split; [reflexivity|]. split; [exact N|].
  destruct u as [a1 a2 a3 a4]. cbn in W1, W2, W3, W4. subst a1 a2 a4. f_equal. rewrite W4. f_equal. f_equal.
  assert (A : forall l0 : list (bytes32 * bytes32), ~ In p (map fst l0) -> filter (fun e => negb (b32_eqb (fst e) p || false)) l0 = l0).
  { induction l0 as [|[x y] l0 IH]; intros NI; [reflexivity|]. cbn [filter fst]. destruct (b32_eqb x p) eqn:Q.
    - apply b32_eqb_eq in Q. exfalso. apply NI. left. exact Q.
    - cbn. f_equal. apply IH. intros Z. apply NI. right. exact Z. }
  apply A. exact N.
Qed.
