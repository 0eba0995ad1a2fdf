(** Release builds: nodes after a complete cross-section survive concealing and merging. *)
From Verif Require Import Base BaseFacts OrdMap SpecHash HashFacts Merkle MpcAtoms MpcTree MpcBlock.
From Verif Require Import SpecTree SpecBlock SpecValid TreeFacts ConcealProofs MergeProofs DerivedProofs.
Local Open Scope nat_scope.

(** No two neighbouring concealed nodes of equal depth *)
Fixpoint separated (xs : list tree_node) : Prop :=
  match xs with
  | [] => True
  | n :: tl =>
      (match n with ConcealedNode d _ => head_conc_at d tl = false | _ => True end) /\ separated tl
  end.

Section Poison.
Context {H : Hasher}.

Lemma node_span_release D d : exists s, node_span Release D d = Ret s.
Proof.
  unfold node_span, u32_sub. destruct (_ <=? _)%N; cbn [bind]; unfold u32_pow2; destruct (_ <? _)%N; eexists; reflexivity.
Qed.
Lemma u32_add_release a b : exists s, u32_add Release a b = Ret s.
Proof. unfold u32_add. destruct (_ <? _)%N; eexists; reflexivity. Qed.

Lemma pass1_separated D xs : forall o c, separated xs -> exists o', pass1 Release D xs o c = Ret (xs, o', c).
Proof.
  induction xs as [|n tl IH]; intros o c S.
  - exists o. reflexivity.
  - cbn [separated] in S. destruct S as [A S]. destruct n as [d h|p m].
    + destruct (node_span_release D d) as [s E1]. destruct (u32_add_release o s) as [o1 E2].
      destruct (IH o1 c S) as [o2 E3]. exists o2.
      destruct tl as [|[d2 h2|p2 m2] tl2]; cbn [pass1] in *.
      * injection E3 as <-. rewrite E1. cbn [bind]. rewrite E2. reflexivity.
      * cbn in A. rewrite Nat.eqb_sym in A. rewrite A. rewrite E1. cbn [bind]. rewrite E2. cbn [bind]. rewrite E3. reflexivity.
      * rewrite E1. cbn [bind]. rewrite E2. cbn [bind]. rewrite E3. reflexivity.
    + destruct (u32_add_release o 1) as [o1 E2]. destruct (IH o1 c S) as [o2 E3]. exists o2.
      cbn [pass1]. rewrite E2. cbn [bind]. rewrite E3. reflexivity.
Qed.

Lemma pass_suffix D t F c :
  D <= 31 -> pwf_loose D 0 t -> separated F -> head_conc_at 0 F = false ->
  exists o, conceal_pass Release D (flatten 0 t ++ F) 0 c =
    Ret (flatten 0 (pstep (width_of D) 0 t) ++ F, o, (c + pmerges t)%N).
Proof.
  intros HD Hw SF HF. rewrite pass_pass1. destruct (is_conc t) eqn:E.
  - destruct t as [h|?|?]; try discriminate. cbn [flatten app pstep pmerges]. rewrite N.add_0_r.
    apply pass1_separated. cbn [separated]. split; assumption.
  - destruct (pass1_tree Release D t 0 F 0 c HD Hw E) as [_ ->].
    + rewrite N.mod_0_l by (pose proof (sp_pos D 0); lia). reflexivity.
    + lia.
    + destruct (pass1_separated D F (0 + sp D 0)%N (c + pmerges t)%N SF) as [o EF]. exists o.
      rewrite EF. reflexivity.
Qed.

Lemma conceal_loop_suffix D t F c fuel :
  D <= 31 -> pwf_loose D 0 t -> separated F -> head_conc_at 0 F = false -> length (flatten 0 t) < fuel ->
  exists n, conceal_loop fuel Release D (flatten 0 t ++ F) c = Ret (flatten 0 (pcoarse (width_of D) 0 t) ++ F, n).
Proof.
  intros HD Hw SF HF. revert t c Hw; induction fuel as [|fuel IH]; intros t c Hw Hf; [lia|].
  cbn [conceal_loop debug_assert bind]. destruct (pass_suffix D t F c HD Hw SF HF) as [o ->]. cbn [bind].
  destruct (c + pmerges t =? c)%N eqn:E.
  - apply N.eqb_eq in E. assert (E0 : pmerges t = 0%N) by lia.
    rewrite (pmerges_step _ _ _ E0), (pcoarse_maximal _ _ _ (pmerges_maximal _ E0)). eexists. reflexivity.
  - apply N.eqb_neq in E. pose proof (pstep_length (width_of D) 0 t) as HL.
    destruct (IH (pstep (width_of D) 0 t) (c + pmerges t)%N) as [n EI]; [apply pstep_pwf_loose; exact Hw|lia|].
    rewrite pstep_coarse in EI. exists n. exact EI.
Qed.

(** The commitment of a complete cross-section followed by anything that cannot be aggregated *)
Lemma commit_suffix b t F :
  mb_depth b <= 31 -> pwf (mb_depth b) 0 t -> mb_cross_section b = flatten 0 t ++ F ->
  separated (map (keep_node (mb_depth b) []) F) -> head_conc_at 0 (map (keep_node (mb_depth b) []) F) = false ->
  block_commit_id Release b = Ret (pcommit (mb_depth b) (mb_cofactor b) t).
Proof.
  intros HD Hw X SF HF. unfold block_commit_id, block_conceal. rewrite conceal_except_unfold.
  replace (missing [] _) with (@nil bytes32).
  2: { symmetry. apply missing_nil. intros q []. }
  rewrite X, map_app, (keep_flatten (mb_depth b) [] 0 t (pwf_loose_of _ _ _ Hw)).
  destruct (conceal_loop_suffix (mb_depth b) (pkeep (mem []) t) (map (keep_node (mb_depth b) []) F)
             (dropped [] (flatten 0 t ++ F)) (Datatypes.S (length (flatten 0 t ++ F))) HD) as [n E];
    [apply pkeep_pwf_loose, pwf_loose_of; exact Hw|exact SF|exact HF| |].
  { rewrite pkeep_length, app_length. lia. }
  rewrite E. cbn [bind]. rewrite pkeep_coarse.
  rewrite prestrict_none.
  2: { induction (pleaves t) as [|e l IH]; [reflexivity|exact IH]. }
  cbn [flatten app with_cross_section mb_cross_section bind debug_assert]. rewrite commit_spec. reflexivity.
Qed.

Lemma merge_loop_suffix D xs F fuel : length xs < fuel ->
  merge_loop fuel D xs (xs ++ F) = Ret (xs ++ tl F).
Proof.
  revert xs; induction fuel as [|fuel IH]; intros xs L; [lia|]. destruct xs as [|n xs].
  - destruct F as [|f F]; reflexivity.
  - cbn [merge_loop app]. rewrite Nat.compare_refl, tree_node_eqb_refl. rewrite IH by (cbn in L; lia). reflexivity.
Qed.

Lemma span_sum_total D xs : forall acc, exists s, span_sum Release D xs acc = Ret s.
Proof.
  induction xs as [|n xs IH]; intros acc; [exists acc; reflexivity|]. cbn [span_sum].
  assert (E1 : exists h, u8_sub Release D (tn_depth_or n D) = Ret h) by (unfold u8_sub; destruct (_ <=? _); eexists; reflexivity).
  destruct E1 as [h ->]. cbn [bind].
  assert (E2 : exists h', u32_pow2 Release (N.of_nat h) = Ret h') by (unfold u32_pow2; destruct (_ <? _)%N; eexists; reflexivity).
  destruct E2 as [h' ->]. cbn [bind]. destruct (u32_add_release acc h') as [a ->]. cbn [bind]. apply IH.
Qed.

End Poison.

Lemma heights_app D a b : heights_sum D (a ++ b) = (heights_sum D a + heights_sum D b)%N.
Proof. induction a as [|n a IH]; [reflexivity|]. cbn [app heights_sum]. rewrite IH. lia. Qed.
Lemma heights_flatten D d t : pwf D d t -> heights_sum D (flatten d t) = (2 ^ N.of_nat (D - d))%N.
Proof.
  revert d; induction t as [h|p m|l IHl r IHr]; intros d W; cbn [flatten heights_sum height pwf] in *.
  - replace (d <=? D) with true by (symmetry; apply Nat.leb_le; exact W). lia.
  - subst d. rewrite Nat.sub_diag. reflexivity.
  - destruct W as [W1 W2]. rewrite heights_app, IHl, IHr by assumption. pose proof (pwf_depth _ _ _ W1).
    replace (D - d) with (S (D - S d)) by lia. rewrite Nat2N.inj_succ, N.pow_succ_r'. lia.
Qed.

(** ** What an attacker appends *)
Section Forged.
Context (z p m : bytes32).

Fixpoint desc (n : nat) : list tree_node :=
  match n with O => [] | S k => ConcealedNode (S k) z :: desc k end.
Fixpoint alternate (n : nat) : list tree_node :=
  match n with O => [] | S k => ConcealedNode 31 z :: ConcealedNode 0 z :: alternate k end.
(** Spans 2^32 positions of a tree of depth [D]. *)
Definition forged (D : nat) : list tree_node :=
  CommitmentLeaf p m :: ConcealedNode 0 z :: desc D ++ alternate (N.to_nat (2 ^ N.of_nat (32 - D) - 2)).

Lemma keep_id {H : Hasher} D xs : known_leaves xs = [] -> map (keep_node D []) xs = xs.
Proof.
  induction xs as [|[d h|q x] xs IH]; intros E; [reflexivity| |discriminate]. cbn in E |- *. rewrite IH by exact E. reflexivity.
Qed.
Lemma desc_leaves n : known_leaves (desc n) = [].
Proof. induction n; [reflexivity|exact IHn]. Qed.
Lemma alternate_leaves n : known_leaves (alternate n) = [].
Proof. induction n; [reflexivity|exact IHn]. Qed.
Lemma alternate_separated n : separated (alternate n).
Proof.
  induction n as [|n IH]; [exact I|]. cbn [alternate separated]. split; [reflexivity|split; [|exact IH]].
  destruct n; reflexivity.
Qed.
Lemma desc_separated n r : separated r -> head_conc_at 1 r = false -> separated (desc n ++ r).
Proof.
  intros S1 H1. induction n as [|n IH]; [exact S1|]. cbn [desc app separated]. split; [|exact IH].
  destruct n as [|n]; [exact H1|]. cbn [desc app head_conc_at]. apply Nat.eqb_neq. lia.
Qed.
Lemma desc_heights D n : n <= D -> (heights_sum D (desc n) + 2 ^ N.of_nat (D - n) = 2 ^ N.of_nat D)%N.
Proof.
  induction n as [|n IH]; intros L.
  - rewrite Nat.sub_0_r. reflexivity.
  - cbn [desc heights_sum height]. replace (S n <=? D) with true by (symmetry; apply Nat.leb_le; exact L).
    specialize (IH ltac:(lia)). replace (D - n) with (S (D - S n)) in IH by lia.
    rewrite Nat2N.inj_succ, N.pow_succ_r' in IH. lia.
Qed.
Lemma alternate_heights D n : D < 31 -> heights_sum D (alternate n) = (N.of_nat n * 2 ^ N.of_nat D)%N.
Proof.
  intros L. induction n as [|n IH]; [reflexivity|]. cbn [alternate heights_sum height].
  replace (31 <=? D) with false by (symmetry; apply Nat.leb_gt; exact L).
  replace (0 <=? D) with true by reflexivity. rewrite IH, Nat.sub_0_r, Nat2N.inj_succ. lia.
Qed.
Lemma forged_heights D : 1 <= D <= 31 -> heights_sum D (forged D) = (2 ^ 32)%N.
Proof.
  intros [L1 L2]. unfold forged. cbn [heights_sum]. rewrite heights_app.
  pose proof (desc_heights D D (le_n D)) as E. rewrite Nat.sub_diag in E. change (2 ^ N.of_nat 0)%N with 1%N in E.
  cbn [height]. replace (0 <=? D) with true by reflexivity. rewrite Nat.sub_0_r.
  assert (P : (2 ^ N.of_nat (32 - D) * 2 ^ N.of_nat D = 2 ^ 32)%N).
  { rewrite <- N.pow_add_r. f_equal. lia. }
  assert (Q : (2 <= 2 ^ N.of_nat (32 - D))%N).
  { change 2%N with (2 ^ 1)%N at 1. apply N.pow_le_mono_r; lia. }
  destruct (Nat.eq_dec D 31) as [->|N31].
  - vm_compute in E |- *. change (N.to_nat (2 ^ N.of_nat (32 - 31) - 2)) with 0. revert E. vm_compute. reflexivity.
  - rewrite alternate_heights, N2Nat.id by lia. set (a := (2 ^ N.of_nat (32 - D))%N) in *. set (w := (2 ^ N.of_nat D)%N) in *.
    rewrite N.mul_sub_distr_r, P. assert (w * 2 <= 2 ^ 32)%N by (rewrite <- P; nia). lia.
Qed.
Lemma forged_separated {H : Hasher} D : 2 <= D <= 31 ->
  separated (map (keep_node D []) (forged D)) /\ head_conc_at 0 (map (keep_node D []) (forged D)) = false /\
  separated (map (keep_node D []) (ConcealedNode 1 z :: forged D)) /\
  head_conc_at 0 (map (keep_node D []) (ConcealedNode 1 z :: forged D)) = false.
Proof.
  intros [L1 L2].
  assert (K : map (keep_node D []) (forged D) =
    ConcealedNode D (HASH (s_leaf p m)) :: ConcealedNode 0 z :: desc D ++ alternate (N.to_nat (2 ^ N.of_nat (32 - D) - 2))).
  { unfold forged. cbn [map keep_node mem existsb]. do 2 f_equal. apply keep_id.
    rewrite known_leaves_app, desc_leaves, alternate_leaves. reflexivity. }
  assert (S1 : separated (map (keep_node D []) (forged D))).
  { rewrite K. cbn [separated head_conc_at]. split; [apply Nat.eqb_neq; lia|]. split.
    - destruct D; [lia|reflexivity].
    - apply desc_separated; [apply alternate_separated|]. destruct (N.to_nat _); reflexivity. }
  split; [exact S1|]. split.
  - rewrite K. apply Nat.eqb_neq. lia.
  - cbn [map keep_node]. split; [|reflexivity]. cbn [separated]. split; [|exact S1].
    rewrite K. apply Nat.eqb_neq. lia.
Qed.
Lemma desc_length n : length (desc n) = n.
Proof. induction n as [|n IH]; [reflexivity|cbn [desc length]; rewrite IH; reflexivity]. Qed.
Lemma alternate_length n : length (alternate n) = 2 * n.
Proof. induction n as [|n IH]; [reflexivity|cbn [alternate length]; rewrite IH; lia]. Qed.
Lemma forged_length D : 2 <= D <= 31 -> (N.of_nat (length (forged D)) + 2 ^ N.of_nat D + 2 ^ 30 < 2 ^ 32)%N.
Proof.
  intros [L1 L2]. unfold forged. cbn [length]. rewrite app_length, desc_length, alternate_length.
  assert (Q : (2 <= 2 ^ N.of_nat (32 - D))%N).
  { change 2%N with (2 ^ 1)%N at 1. apply N.pow_le_mono_r; lia. }
  assert (E : N.of_nat (S (S (D + 2 * N.to_nat (2 ^ N.of_nat (32 - D) - 2)))) = (2 * 2 ^ N.of_nat (32 - D) - 2 + N.of_nat D)%N) by lia.
  rewrite E. assert (A : (N.of_nat D <= 31)%N) by lia.
  destruct (Nat.eq_dec D 2) as [->|D2]; [reflexivity|].
  assert (B : (2 ^ N.of_nat (32 - D) <= 2 ^ 29)%N) by (apply N.pow_le_mono_r; lia).
  assert (C : (2 ^ N.of_nat D <= 2 ^ 31)%N) by (apply N.pow_le_mono_r; lia).
  destruct (Nat.eq_dec D 31) as [->|D31]; [reflexivity|].
  assert (C' : (2 ^ N.of_nat D <= 2 ^ 30)%N) by (apply N.pow_le_mono_r; lia).
  assert (X : (2 ^ 29 * 2 + 31 + 2 ^ 30 + 2 ^ 30 < 2 ^ 32)%N) by reflexivity. lia.
Qed.
Lemma forged_valid D : D <= 31 -> Forall valid_tree_node (forged D).
Proof.
  intros L. unfold forged. constructor; [exact I|]. constructor; [cbn; lia|]. apply Forall_app. split.
  - clear -L. induction D as [|D IH]; [constructor|]. cbn [desc]. constructor; [cbn; lia|apply IH; lia].
  - induction (N.to_nat _) as [|k IH]; [constructor|]. cbn [alternate]. constructor; [cbn; lia|]. constructor; [cbn; lia|exact IH].
Qed.
End Forged.
