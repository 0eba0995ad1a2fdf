(** merge_reveal on all blocks with a complete frontier, including concealed nodes one level too deep. *)
From Verif Require Import Base BaseFacts OrdMap OrdMapFacts SpecHash HashFacts Merkle MpcAtoms
  MpcTree MpcBlock SpecTree SpecBuoy SpecValid TreeFacts ConcealProofs BlockInv PathProofs MergeProofs
  PrefixProofs MpcTreeProofs DerivedProofs.
Local Open Scope nat_scope.

Lemma fdepths_loose D d t : pwf_loose D d t -> map (fun n => tn_depth_or n D) (flatten d t) = fdepths d t.
Proof.
  revert d; induction t as [h|p m|l IHl r IHr]; intros d Hw; cbn.
  - reflexivity.
  - cbn in Hw. subst d. reflexivity.
  - destruct Hw. rewrite map_app, IHl, IHr by assumption. reflexivity.
Qed.

Section Merge.
Context {H : Hasher}.

Lemma flatten_br_loose D d l r : pwf_loose D d (PBr l r) ->
  exists n ns, flatten d (PBr l r) = n :: ns /\ d < tn_depth_or n D /\ ns <> [] /\
    climbs (buoy_new (tn_depth_or n D)) (map (fun n => tn_depth_or n D) ns) d.
Proof.
  intros Hw. destruct (fdepths_br d l r) as [e [ds [E [L N]]]].
  rewrite <- (fdepths_loose D d (PBr l r) Hw) in E. destruct (flatten d (PBr l r)) as [|n ns] eqn:Ef; [discriminate|].
  cbn [map] in E. injection E as E1 E2. exists n, ns. split; [reflexivity|]. split; [lia|].
  split; [destruct ns; [cbn in E2; congruence|discriminate]|].
  apply (buoy_subtree (PBr l r)). rewrite <- (fdepths_loose D d _ Hw), Ef. reflexivity.
Qed.

Lemma merge_loop_loose D W a b d :
  pcompat W d a b -> pwf_loose D d a -> pwf_loose D d b ->
  exists k, k <= length (flatten d a) /\ forall fuel ra rb,
    merge_loop (k + fuel) D (flatten d a ++ ra) (flatten d b ++ rb) =
    bind (merge_loop fuel D ra rb) (fun r => Ret (flatten d (pjoin a b) ++ r)).
Proof.
  revert d b; induction a as [h|p m|l IHl r IHr]; intros d b C Wa Wb.
  - destruct b as [h'|p' m'|l' r'].
    + cbn in C. subst h'. exists 1. split; [cbn; lia|]. intros fuel ra rb.
      cbn [Nat.add flatten app merge_loop tn_depth_or tn_depth pjoin].
      rewrite Nat.compare_refl. rewrite tree_node_eqb_refl. reflexivity.
    + exists 1. split; [cbn; lia|]. intros fuel ra rb. cbn in Wb. subst d.
      cbn [Nat.add flatten app merge_loop tn_depth_or tn_depth pjoin].
      rewrite Nat.compare_refl. reflexivity.
    + destruct (flatten_br_loose D d l' r' Wb) as [n [ns [E [L [N Cl]]]]].
      exists 1. split; [cbn; lia|]. intros fuel ra rb. cbn [pjoin].
      rewrite E. cbn [Nat.add flatten app merge_loop].
      change (tn_depth_or (ConcealedNode d h) D) with d.
      replace (Nat.compare d (tn_depth_or n D)) with Datatypes.Lt by (symmetry; apply Nat.compare_lt_iff; exact L).
      rewrite (merge_take_climbs D d _ ns rb Cl N). reflexivity.
  - destruct b as [h'|p' m'|l' r'].
    + exists 1. split; [cbn; lia|]. intros fuel ra rb. cbn in Wa. subst d.
      cbn [Nat.add flatten app merge_loop tn_depth_or tn_depth pjoin].
      rewrite Nat.compare_refl. reflexivity.
    + cbn in C. destruct C as [<- <-]. exists 1. split; [cbn; lia|]. intros fuel ra rb.
      cbn [Nat.add flatten app merge_loop tn_depth_or tn_depth pjoin].
      rewrite Nat.compare_refl. rewrite tree_node_eqb_refl. reflexivity.
    + destruct C.
  - destruct b as [h'|p' m'|l' r'].
    + destruct (flatten_br_loose D d l r Wa) as [n [ns [E [L [N Cl]]]]].
      exists 1. split; [rewrite E; cbn; lia|]. intros fuel ra rb. cbn [pjoin].
      rewrite E. cbn [Nat.add flatten app merge_loop].
      change (tn_depth_or (ConcealedNode d h') D) with d.
      replace (Nat.compare (tn_depth_or n D) d) with Datatypes.Gt by (symmetry; apply Nat.compare_gt_iff; exact L).
      rewrite (merge_take_climbs D d _ ns ra Cl N). reflexivity.
    + destruct C.
    + cbn [pcompat] in C. destruct C as [C1 C2]. destruct Wa as [W1 W2], Wb as [W3 W4].
      destruct (IHl _ _ C1 W1 W3) as [k1 [K1 E1]]. destruct (IHr _ _ C2 W2 W4) as [k2 [K2 E2]].
      exists (k1 + k2). cbn [flatten]. split; [rewrite app_length; lia|]. intros fuel ra rb.
      rewrite <- !app_assoc, <- Nat.add_assoc, E1, E2. rewrite bind_assoc. apply bind_ext.
      intros y. cbn. rewrite app_assoc. reflexivity.
Qed.

Lemma merge_full_loose D W a b :
  pcompat W 0 a b -> pwf_loose D 0 a -> pwf_loose D 0 b ->
  merge_loop (S (length (flatten 0 a))) D (flatten 0 a) (flatten 0 b) = Ret (flatten 0 (pjoin a b)).
Proof.
  intros C Wa Wb. destruct (merge_loop_loose D W a b 0 C Wa Wb) as [k [K E]].
  specialize (E (S (length (flatten 0 a)) - k) [] []). rewrite !app_nil_r in E.
  replace (k + (S (length (flatten 0 a)) - k)) with (S (length (flatten 0 a))) in E by lia.
  rewrite E. destruct (S (length (flatten 0 a)) - k) eqn:Q; [lia|]. cbn. rewrite app_nil_r. reflexivity.
Qed.

Lemma pjoin_loose D W d a b : pcompat W d a b -> pwf_loose D d a -> pwf_loose D d b -> pwf_loose D d (pjoin a b).
Proof.
  revert d b; induction a as [h|p m|l IHl r IHr]; intros d b.
  - cbn. auto.
  - destruct b; cbn; auto.
  - destruct b as [h|p m|l' r']; cbn; try tauto. intros [A B] [C E] [F G]. auto.
Qed.

Lemma pjoin_pwf_inv D W d a b :
  pcompat W d a b -> pwf_loose D d a -> pwf_loose D d b -> pwf D d (pjoin a b) -> pwf D d a /\ pwf D d b.
Proof.
  revert d b; induction a as [h|p m|l IHl r IHr]; intros d b.
  - cbn. intros _ _ _ P. split; [apply pwf_depth in P; exact P|exact P].
  - destruct b as [h'|p' m'|l' r']; cbn; try tauto. intros _ -> _ _. lia.
  - destruct b as [h'|p' m'|l' r']; cbn; try tauto.
    + intros _ _ _ [P Q]. split; [tauto|]. apply pwf_depth in P. lia.
    + intros [A B] [C E] [F G] [P Q]. destruct (IHl _ _ A C F P). destruct (IHr _ _ B E G Q). tauto.
Qed.

Lemma pwf_dec D d t : pwf D d t \/ ~ pwf D d t.
Proof.
  revert d; induction t as [h|p m|l IHl r IHr]; intros d; cbn.
  - lia.
  - lia.
  - destruct (IHl (S d)), (IHr (S d)); tauto.
Qed.

Lemma shallow_pwf D d t :
  pwf_loose D d t -> Forall (fun n => tn_depth_or n D <= D) (flatten d t) -> pwf D d t.
Proof.
  revert d; induction t as [h|p m|l IHl r IHr]; intros d W F; cbn in *.
  - inversion F as [|? ? F1 _]. exact F1.
  - exact W.
  - apply Forall_app in F as [F1 F2]. destruct W as [W1 W2]. auto.
Qed.

(** What a tree contributes in release builds *)
Fixpoint rspan (D d : nat) (t : ptree) : N :=
  match t with
  | PConc _ => if d <=? D then sp D d else 0
  | PLeaf _ _ => 1
  | PBr l r => rspan D (S d) l + rspan D (S d) r
  end.

Lemma rspan_bound D d t : pwf_loose D d t ->
  (if d <=? D then (rspan D d t <= sp D d)%N /\ (~ pwf D d t -> (rspan D d t < sp D d)%N) else rspan D d t = 0%N).
Proof.
  revert d; induction t as [h|p m|l IHl r IHr]; intros d W; cbn [pwf_loose rspan pwf] in *.
  - destruct (d <=? D) eqn:E; [|reflexivity]. apply Nat.leb_le in E. split; [lia|tauto].
  - subst d. rewrite Nat.leb_refl. pose proof (sp_pos D D). split; [lia|tauto].
  - destruct W as [W1 W2]. specialize (IHl _ W1). specialize (IHr _ W2).
    destruct (d <=? D) eqn:E.
    + apply Nat.leb_le in E. destruct (S d <=? D) eqn:E1.
      * apply Nat.leb_le in E1. pose proof (sp_S D d E1). destruct IHl as [A1 A2], IHr as [B1 B2].
        split; [lia|]. intros N. destruct (pwf_dec D (S d) l) as [P|P]; [|specialize (A2 P); lia].
        destruct (pwf_dec D (S d) r) as [Q|Q]; [tauto|specialize (B2 Q); lia].
      * pose proof (sp_pos D d). lia.
    + apply Nat.leb_gt in E. replace (S d <=? D) with false in * by (symmetry; apply Nat.leb_gt; lia). lia.
Qed.

Lemma span_sum_loose D t d rest acc :
  D <= 31 -> pwf_loose D d t -> (acc + rspan D d t <= 2 ^ 31)%N ->
  span_sum Release D (flatten d t ++ rest) acc = span_sum Release D rest (acc + rspan D d t)%N.
Proof.
  intros HD. revert d rest acc; induction t as [h|p m|l IHl r IHr]; intros d rest acc Hw Ha.
  - cbn [pwf_loose rspan] in *. cbn [flatten app span_sum tn_depth_or tn_depth]. unfold u8_sub.
    destruct (d <=? D) eqn:E.
    + apply Nat.leb_le in E. cbn [bind].
      unfold u32_pow2. replace (N.of_nat (D - d) <? 32)%N with true by (symmetry; apply N.ltb_lt; lia).
      cbn [bind]. fold (sp D d). rewrite u32_add_ok by lia. reflexivity.
    + apply Nat.leb_gt in E. cbn [bind].
      unfold u32_pow2. replace (N.of_nat (D + 256 - d) <? 32)%N with false by (symmetry; apply N.ltb_ge; lia).
      cbn [bind]. rewrite u32_add_ok by lia. reflexivity.
  - cbn [pwf_loose rspan] in *. subst d. cbn [flatten app span_sum tn_depth_or tn_depth]. unfold u8_sub.
    rewrite Nat.leb_refl. cbn [bind].
    unfold u32_pow2. replace (N.of_nat (D - D) <? 32)%N with true by (symmetry; apply N.ltb_lt; lia).
    cbn [bind]. rewrite Nat.sub_diag. change (2 ^ N.of_nat 0)%N with 1%N. rewrite u32_add_ok by lia. reflexivity.
  - cbn [pwf_loose rspan flatten] in *. destruct Hw as [W1 W2].
    rewrite <- app_assoc, IHl by (try assumption; lia). rewrite IHr by (try assumption; lia).
    f_equal. lia.
Qed.

(** Blocks with compatible complete frontiers of which one has nodes below the tree: merging panics. *)
Theorem merge_deep_panics md b1 b2 t1 t2 :
  mb_depth b1 <= 31 -> mb_cross_section b1 = flatten 0 t1 -> pwf_loose (mb_depth b1) 0 t1 ->
  mb_cross_section b2 = flatten 0 t2 -> pwf_loose (mb_depth b2) 0 t2 ->
  mb_depth b1 = mb_depth b2 -> mb_cofactor b1 = mb_cofactor b2 ->
  pcompat (width_of (mb_depth b1)) 0 t1 t2 -> ~ (pwf (mb_depth b1) 0 t1 /\ pwf (mb_depth b1) 0 t2) ->
  exists p, merge_reveal md b1 b2 = Panic p.
Proof.
  intros HD X1 W1 X2 W2 ED EC C N. rewrite <- ED in *.
  set (t := pjoin t1 t2). assert (Wt : pwf_loose (mb_depth b1) 0 t) by (eapply pjoin_loose; eassumption).
  assert (Nt : ~ pwf (mb_depth b1) 0 t) by (intros P; apply N; eapply pjoin_pwf_inv; eassumption).
  unfold merge_reveal. rewrite (block_commit_id_ok md b1 t1 HD X1 W1). cbn [bind].
  rewrite (block_commit_id_ok md b2 t2); [|rewrite <- ED; exact HD|exact X2|rewrite <- ED; exact W2].
  cbn [bind]. rewrite <- ED, <- EC.
  assert (EP : pcommit (mb_depth b1) (mb_cofactor b1) t1 = pcommit (mb_depth b1) (mb_cofactor b1) t2).
  { unfold pcommit. apply pcompat_phash in C. unfold width_of in C. rewrite C. reflexivity. }
  rewrite <- EP, b32_eqb_refl. cbn [negb].
  rewrite X1, X2, (merge_full_loose _ _ _ _ C W1 W2). cbn [bind]. fold t.
  destruct (flatten 0 t) as [|n ns] eqn:Ef; [eexists; reflexivity|]. rewrite <- Ef.
  destruct (N.of_nat (length (flatten 0 t)) <? u32_lim)%N; cbn [assert bind]; [|eexists; reflexivity].
  destruct (span_sum md (mb_depth b1) (flatten 0 t) 0) as [s|p] eqn:ES; cbn [bind]; [|eexists; reflexivity].
  replace (s =? mb_width_limit b1)%N with false; [eexists; reflexivity|]. symmetry. apply N.eqb_neq.
  unfold mb_width_limit. destruct md.
  - apply span_sum_debug in ES as [_ F]. destruct (Nt (shallow_pwf _ _ _ Wt F)).
  - pose proof (rspan_bound _ _ _ Wt) as B. cbn in B. destruct B as [B1 B2]. specialize (B2 Nt).
    pose proof (sp_bound (mb_depth b1) 0 HD) as Hb.
    rewrite <- (app_nil_r (flatten 0 t)), (span_sum_loose _ t 0 [] 0 HD Wt) in ES by lia.
    rewrite N.add_0_l in ES. cbn [span_sum] in ES. injection ES as <-. rewrite sp_0 in B2. lia.
Qed.

Lemma wf_tree b t :
  mb_cross_section b = flatten 0 t -> pwf_loose (mb_depth b) 0 t -> mb_depth b <= 31 -> (mb_cofactor b < 2 ^ 16)%N ->
  (wf_block b <-> pwf (mb_depth b) 0 t).
Proof.
  intros X W HD Hc. split.
  - intros [t' [_ [_ [X' W']]]].
    destruct (flatten_prefix_unique (mb_depth b) 0 t' t [] []) as [E _].
    + apply pwf_loose_deep, pwf_loose_of, W'.
    + apply pwf_loose_deep, W.
    + rewrite !app_nil_r. congruence.
    + subst t'. exact W'.
  - intros P. exists t. repeat split; assumption.
Qed.

End Merge.
