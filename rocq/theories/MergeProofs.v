(** merkle.rs:245-299 MerkleBuoy and block.rs:428-553 merge_reveal. *)
From Verif Require Import Base BaseFacts OrdMap OrdMapFacts SpecHash HashFacts Merkle MpcAtoms
  MpcTree MpcBlock SpecTree SpecBuoy TreeFacts ConcealProofs BlockInv PathProofs.
Local Open Scope nat_scope.

(** ** Buoy *)
Lemma push_flat_true b k x : buoy_push_flat b k = (true, x) -> k = b /\ b <> 0 /\ x = Buoy (b - 1) None.
Proof.
  unfold buoy_push_flat. destruct (k =? 0) eqn:E0; [discriminate|].
  destruct (k =? b) eqn:E; [|discriminate]. apply Nat.eqb_eq in E. apply Nat.eqb_neq in E0.
  intros Q; injection Q as <-. split; [exact E|split; [lia|reflexivity]].
Qed.
Lemma push_true_flat x k x' : buoy_push x k = (true, x') -> exists b, x' = Buoy b None.
Proof.
  destruct x as [b [s|]]; cbn; destruct (k =? 0); try discriminate.
  - destruct (buoy_push s k) as [sf s']. destruct sf; [|discriminate].
    intros E. apply push_flat_true in E as [_ [_ ->]]. eauto.
  - intros E. apply push_flat_true in E as [_ [_ ->]]. eauto.
Qed.

Fixpoint climbs (s : buoy) (ds : list nat) (d : nat) : Prop :=
  match ds with
  | [] => s = Buoy d None
  | k :: r =>
      d < buoy_level s /\
      climbs (snd (buoy_push s k)) r d /\ (r = [] -> fst (buoy_push s k) = true)
  end.

Lemma climbs_app s ds e ds' d :
  climbs s ds e -> d < e -> climbs (Buoy e None) ds' d -> ds' <> [] -> climbs s (ds ++ ds') d.
Proof.
  intros C L C' N. revert s C; induction ds as [|k r IH]; intros s C; cbn in C.
  - subst s. exact C'.
  - destruct C as [L1 [C1 _]]. cbn. split; [lia|]. split; [apply IH; exact C1|].
    intros E. apply app_eq_nil in E as [_ E]. contradiction.
Qed.

Lemma buoy_push_stack b s k :
  buoy_push (Buoy b (Some s)) k =
  if k =? 0 then (false, Buoy b (Some s))
  else if fst (buoy_push s k) then buoy_push_flat b (buoy_level (snd (buoy_push s k)))
  else (false, Buoy b (Some (snd (buoy_push s k)))).
Proof. cbn. destruct (k =? 0); [reflexivity|]. destruct (buoy_push s k); reflexivity. Qed.
Lemma buoy_push_zero s : buoy_push s 0 = (false, s).
Proof. destruct s as [b [s|]]; reflexivity. Qed.

Lemma climbs_nest s ds d :
  climbs s ds (S d) -> ds <> [] -> climbs (Buoy (S d) (Some s)) ds d.
Proof.
  revert s; induction ds as [|k r IH]; intros s C N; [congruence|]. clear N.
  destruct C as [L [C F]]. cbn [climbs]. split; [cbn; lia|].
  rewrite buoy_push_stack. destruct (k =? 0) eqn:E0.
  - apply Nat.eqb_eq in E0. subst k. rewrite buoy_push_zero in *. cbn in *.
    destruct r as [|k r]; [specialize (F eq_refl); discriminate|].
    split; [apply IH; [exact C|discriminate]|discriminate].
  - destruct (buoy_push s k) as [sf s'] eqn:E; cbn [fst snd] in *.
    destruct r as [|k2 r].
    + rewrite (F eq_refl). cbn in C. subst s'. cbn. rewrite Nat.eqb_refl, Nat.sub_0_r. cbn. auto.
    + destruct sf; [|cbn [fst snd]; split; [apply IH; [exact C|discriminate]|discriminate]].
      apply push_true_flat in E as [b' ->]. cbn [buoy_level].
      destruct C as [L' C']. cbn [buoy_level] in L'. unfold buoy_push_flat.
      replace (b' =? 0) with false by (symmetry; apply Nat.eqb_neq; lia).
      replace (b' =? S d) with false by (symmetry; apply Nat.eqb_neq; lia).
      cbn [fst snd]. split; [|discriminate]. apply IH; [|discriminate]. split; [exact L'|exact C'].
Qed.

Lemma fdepths_ge d t k : In k (fdepths d t) -> d <= k.
Proof.
  revert d; induction t as [h|p m|l IHl r IHr]; intros d HI; cbn in HI.
  - destruct HI as [<-|[]]. lia.
  - destruct HI as [<-|[]]. lia.
  - apply in_app_or in HI as [HI|HI]; [apply IHl in HI|apply IHr in HI]; lia.
Qed.
Lemma fdepths_br d l r : exists e ds, fdepths d (PBr l r) = e :: ds /\ d < e /\ ds <> [].
Proof.
  cbn. assert (G : forall t d, exists e ds, fdepths d t = e :: ds /\ d <= e).
  { clear. induction t as [h|p m|l IHl r IHr]; intros d; cbn.
    - exists d, []. auto.
    - exists d, []. auto.
    - destruct (IHl (S d)) as [e [ds [E L]]]. rewrite E. exists e, (ds ++ fdepths (S d) r).
      split; [reflexivity|lia]. }
  destruct (G l (S d)) as [e [ds [E L]]]. rewrite E. exists e, (ds ++ fdepths (S d) r).
  split; [reflexivity|]. split; [lia|]. intros C. apply app_eq_nil in C as [_ C].
  destruct (G r (S d)) as [e' [ds' [E' _]]]. congruence.
Qed.

Lemma buoy_subtree t d e ds : fdepths d t = e :: ds -> climbs (buoy_new e) ds d.
Proof.
  revert d e ds; induction t as [h|p m|l IHl r IHr]; intros d e ds E.
  - injection E as <- <-. reflexivity.
  - injection E as <- <-. reflexivity.
  - cbn in E. destruct (fdepths (S d) l) as [|e1 ds1] eqn:El.
    { exfalso. destruct l as [?|?|l1 l2]; try discriminate.
      destruct (fdepths_br (S d) l1 l2) as [x [y [Q _]]]. congruence. }
    cbn in E. injection E as <- <-. specialize (IHl _ _ _ El).
    destruct (fdepths (S d) r) as [|e2 ds2] eqn:Er.
    { exfalso. destruct r as [?|?|l1 l2]; try discriminate.
      destruct (fdepths_br (S d) l1 l2) as [x [y [Q _]]]. congruence. }
    specialize (IHr _ _ _ Er).
    apply (climbs_app _ _ (S d)); [exact IHl|lia| |discriminate].
    (* second child pushed on a flat buoy *)
    cbn [climbs buoy_level]. split; [lia|]. cbn [buoy_push]. unfold buoy_push_flat.
    assert (G : S d <= e2) by (apply (fdepths_ge (S d) r); rewrite Er; left; reflexivity).
    replace (e2 =? 0) with false by (symmetry; apply Nat.eqb_neq; lia).
    destruct (e2 =? S d) eqn:E2.
    + (* single node *)
      apply Nat.eqb_eq in E2. subst e2. destruct r as [?|?|l1 l2]; cbn in Er.
      * injection Er as <-. cbn. rewrite Nat.sub_0_r. auto.
      * injection Er as <-. cbn. rewrite Nat.sub_0_r. auto.
      * exfalso. destruct (fdepths_br (S d) l1 l2) as [x [y [Q [Q' _]]]]. cbn in Q. rewrite Q in Er.
        injection Er as -> _. lia.
    + cbn [fst snd]. apply Nat.eqb_neq in E2. destruct ds2 as [|k2 ds2].
      * exfalso. cbn in IHr. injection IHr as ->. lia.
      * split; [|discriminate]. apply climbs_nest; [exact IHr|discriminate].
Qed.

Lemma fdepths_flatten D d t : pwf D d t -> map (fun n => tn_depth_or n D) (flatten d t) = fdepths d t.
Proof.
  revert d; induction t as [h|p m|l IHl r IHr]; intros d Hw; cbn.
  - reflexivity.
  - cbn in Hw. subst d. reflexivity.
  - destruct Hw. rewrite map_app, IHl, IHr by assumption. reflexivity.
Qed.

Lemma merge_take_climbs D target bu ns rest :
  climbs bu (map (fun n => tn_depth_or n D) ns) target -> ns <> [] ->
  merge_take D target false bu (ns ++ rest) = (ns, rest).
Proof.
  revert bu; induction ns as [|n ns IH]; intros bu C N; [congruence|]. clear N.
  cbn [map climbs] in C. destruct C as [L [C _]]. cbn [app merge_take].
  destruct ns as [|n2 ns].
  - cbn in C. rewrite C. cbn [buoy_level]. rewrite Nat.leb_refl. cbn [app].
    destruct rest; reflexivity.
  - destruct C as [L2 C2]. replace (buoy_level (snd (buoy_push bu (tn_depth_or n D))) <=? target)
      with false by (symmetry; apply Nat.leb_gt; exact L2).
    rewrite IH; [reflexivity| |discriminate]. split; [exact L2|exact C2].
Qed.

Section Merge.
Context {H : Hasher}.

Lemma tree_node_eqb_refl n : tree_node_eqb n n = true.
Proof. destruct n; cbn; rewrite ?Nat.eqb_refl, !b32_eqb_refl; reflexivity. Qed.

Lemma flatten_br D d l r : pwf D d (PBr l r) ->
  exists n ns, flatten d (PBr l r) = n :: ns /\ d < tn_depth_or n D /\ ns <> [] /\
    climbs (buoy_new (tn_depth_or n D)) (map (fun n => tn_depth_or n D) ns) d.
Proof.
  intros Hw. destruct (fdepths_br d l r) as [e [ds [E [L N]]]].
  rewrite <- (fdepths_flatten D d (PBr l r) Hw) in E. destruct (flatten d (PBr l r)) as [|n ns] eqn:Ef; [discriminate|].
  cbn [map] in E. injection E as E1 E2. exists n, ns. split; [reflexivity|]. split; [lia|].
  split; [destruct ns; [cbn in E2; congruence|discriminate]|].
  apply (buoy_subtree (PBr l r)). rewrite <- (fdepths_flatten D d _ Hw), Ef. reflexivity.
Qed.

Lemma merge_loop_tree D W a b d :
  pcompat W d a b -> pwf D d a -> pwf D d b ->
  exists k, k <= length (flatten d a) /\ forall fuel ra rb,
    merge_loop (k + fuel) D (flatten d a ++ ra) (flatten d b ++ rb) =
    bind (merge_loop fuel D ra rb) (fun r => Ret (flatten d (pjoin a b) ++ r)).
Proof.
  revert d b; induction a as [h|p m|l IHl r IHr]; intros d b C Wa Wb.
  - destruct b as [h'|p' m'|l' r'].
    + cbn in C. subst h'. exists 1. split; [cbn; lia|]. intros fuel ra rb.
      cbn [Nat.add flatten app merge_loop tn_depth_or tn_depth pjoin].
      rewrite Nat.compare_refl. rewrite tree_node_eqb_refl. reflexivity.
    + exists 1. split; [cbn; lia|]. intros fuel ra rb. cbn in Wb. subst d.
      cbn [Nat.add flatten app merge_loop tn_depth_or tn_depth pjoin].
      rewrite Nat.compare_refl. reflexivity.
    + destruct (flatten_br D d l' r' Wb) as [n [ns [E [L [N Cl]]]]].
      exists 1. split; [cbn; lia|]. intros fuel ra rb. cbn [pjoin].
      rewrite E. cbn [Nat.add flatten app merge_loop].
      change (tn_depth_or (ConcealedNode d h) D) with d.
      replace (Nat.compare d (tn_depth_or n D)) with Datatypes.Lt by (symmetry; apply Nat.compare_lt_iff; exact L).
      rewrite (merge_take_climbs D d _ ns rb Cl N). reflexivity.
  - destruct b as [h'|p' m'|l' r'].
    + exists 1. split; [cbn; lia|]. intros fuel ra rb. cbn in Wa. subst d.
      cbn [Nat.add flatten app merge_loop tn_depth_or tn_depth pjoin].
      rewrite Nat.compare_refl. reflexivity.
    + cbn in C. destruct C as [<- <-]. exists 1. split; [cbn; lia|]. intros fuel ra rb.
      cbn [Nat.add flatten app merge_loop tn_depth_or tn_depth pjoin].
      rewrite Nat.compare_refl. rewrite tree_node_eqb_refl. reflexivity.
    + destruct C.
  - destruct b as [h'|p' m'|l' r'].
    + destruct (flatten_br D d l r Wa) as [n [ns [E [L [N Cl]]]]].
      exists 1. split; [rewrite E; cbn; lia|]. intros fuel ra rb. cbn [pjoin].
      rewrite E. cbn [Nat.add flatten app merge_loop].
      change (tn_depth_or (ConcealedNode d h') D) with d.
      replace (Nat.compare (tn_depth_or n D) d) with Datatypes.Gt by (symmetry; apply Nat.compare_gt_iff; exact L).
      rewrite (merge_take_climbs D d _ ns ra Cl N). reflexivity.
    + destruct C.
    + cbn [pcompat] in C. destruct C as [C1 C2]. destruct Wa as [W1 W2], Wb as [W3 W4].
      destruct (IHl _ _ C1 W1 W3) as [k1 [K1 E1]]. destruct (IHr _ _ C2 W2 W4) as [k2 [K2 E2]].
      exists (k1 + k2). cbn [flatten]. split; [rewrite app_length; lia|]. intros fuel ra rb.
      rewrite <- !app_assoc, <- Nat.add_assoc, E1, E2. rewrite bind_assoc. apply bind_ext.
      intros y. cbn. rewrite app_assoc. reflexivity.
Qed.

Lemma merge_loop_full D W a b :
  pcompat W 0 a b -> pwf D 0 a -> pwf D 0 b ->
  merge_loop (S (length (flatten 0 a))) D (flatten 0 a) (flatten 0 b) = Ret (flatten 0 (pjoin a b)).
Proof.
  intros C Wa Wb. destruct (merge_loop_tree D W a b 0 C Wa Wb) as [k [K E]].
  specialize (E (S (length (flatten 0 a)) - k) [] []). rewrite !app_nil_r in E.
  replace (k + (S (length (flatten 0 a)) - k)) with (S (length (flatten 0 a))) in E by lia.
  rewrite E. destruct (S (length (flatten 0 a)) - k) eqn:Q; [lia|]. cbn. rewrite app_nil_r. reflexivity.
Qed.

Lemma span_sum_tree md D t d rest acc :
  D <= 31 -> pwf D d t -> (acc + sp D d <= 2 ^ 31)%N ->
  span_sum md D (flatten d t ++ rest) acc = span_sum md D rest (acc + sp D d)%N.
Proof.
  intros HD. revert d rest acc; induction t as [h|p m|l IHl r IHr]; intros d rest acc Hw Ha.
  - cbn [pwf] in Hw. cbn [flatten app span_sum tn_depth_or tn_depth]. unfold u8_sub.
    replace (d <=? D) with true by (symmetry; apply Nat.leb_le; exact Hw). cbn [bind].
    unfold u32_pow2. replace (N.of_nat (D - d) <? 32)%N with true by (symmetry; apply N.ltb_lt; lia).
    cbn [bind]. fold (sp D d). rewrite u32_add_ok by lia. reflexivity.
  - cbn in Hw. subst d. cbn [flatten app span_sum tn_depth_or tn_depth]. unfold u8_sub.
    rewrite Nat.leb_refl. cbn [bind].
    unfold u32_pow2. replace (N.of_nat (D - D) <? 32)%N with true by (symmetry; apply N.ltb_lt; lia).
    cbn [bind]. fold (sp D D). rewrite u32_add_ok by lia. reflexivity.
  - destruct Hw as [W1 W2]. pose proof (sp_S D d (pwf_depth _ _ _ W1)) as HS.
    cbn [flatten]. rewrite <- app_assoc, IHl by (try assumption; lia). rewrite IHr by (try assumption; lia).
    f_equal. lia.
Qed.

Lemma flatten_length_sp D d t : pwf D d t -> (N.of_nat (length (flatten d t)) <= sp D d)%N.
Proof.
  revert d; induction t as [h|p m|l IHl r IHr]; intros d Hw; cbn [flatten length].
  - pose proof (sp_pos D d). lia.
  - pose proof (sp_pos D d). lia.
  - destruct Hw as [W1 W2]. pose proof (sp_S D d (pwf_depth _ _ _ W1)) as HS.
    rewrite app_length. specialize (IHl _ W1). specialize (IHr _ W2). lia.
Qed.

(** ** merge_reveal on two views of one tree *)
Theorem merge_reveal_compat md b1 b2 t1 t2 :
  block_tree b1 t1 -> block_tree b2 t2 ->
  mb_depth b1 = mb_depth b2 -> mb_cofactor b1 = mb_cofactor b2 ->
  pcompat (width_of (mb_depth b1)) 0 t1 t2 ->
  let t := pjoin t1 t2 in
  merge_reveal md b1 b2 =
    Ret (MBlock (mb_method b1) (mb_depth b1) (mb_cofactor b1) (flatten 0 t) (mb_entropy b1),
         Ok (N.of_nat (length (flatten 0 t)) mod 2 ^ 16)%N) /\
  block_tree (MBlock (mb_method b1) (mb_depth b1) (mb_cofactor b1) (flatten 0 t) (mb_entropy b1)) t.
Proof.
  intros [HD [Hc [Hx Hw]]] [HD2 [Hc2 [Hx2 Hw2]]] ED EC C t.
  rewrite <- ED in *. rewrite <- EC in *.
  assert (Hwt : pwf (mb_depth b1) 0 t) by (eapply pjoin_pwf; eassumption).
  split; [|repeat split; assumption].
  unfold merge_reveal.
  rewrite (block_commit_id_ok md b1 t1 HD Hx (pwf_loose_of _ _ _ Hw)). cbn [bind].
  rewrite (block_commit_id_ok md b2 t2); [|rewrite <- ED; exact HD|exact Hx2|rewrite <- ED; apply pwf_loose_of; exact Hw2].
  cbn [bind]. rewrite <- ED, <- EC.
  assert (EP : pcommit (mb_depth b1) (mb_cofactor b1) t1 = pcommit (mb_depth b1) (mb_cofactor b1) t2).
  { unfold pcommit. apply pcompat_phash in C. unfold width_of in C. rewrite C. reflexivity. }
  rewrite <- EP, b32_eqb_refl. cbn [negb].
  rewrite Hx, Hx2, (merge_loop_full _ _ _ _ C Hw Hw2). cbn [bind]. fold t.
  destruct (flatten 0 t) as [|n ns] eqn:Ef; [destruct (flatten_nonempty 0 t Ef)|]. rewrite <- Ef.
  pose proof (flatten_length_sp _ _ _ Hwt) as Hl. pose proof (sp_bound (mb_depth b1) 0 HD) as Hb.
  unfold assert at 1. replace (N.of_nat (length (flatten 0 t)) <? u32_lim)%N with true
    by (symmetry; apply N.ltb_lt; unfold u32_lim; lia). cbn [bind].
  assert (ES : span_sum md (mb_depth b1) (flatten 0 t) 0 = Ret (width_of (mb_depth b1))).
  { rewrite <- (app_nil_r (flatten 0 t)), (span_sum_tree md _ t 0 [] 0 HD Hwt) by lia.
    cbn [span_sum]. rewrite N.add_0_l, sp_0. reflexivity. }
  rewrite ES. cbn [bind]. unfold mb_width_limit. rewrite N.eqb_refl. cbn [assert bind].
  rewrite (block_commit_id_ok md _ t); [|exact HD|reflexivity|apply pwf_loose_of; exact Hwt].
  cbn [bind with_cross_section mb_depth mb_cofactor].
  replace (pcommit (mb_depth b1) (mb_cofactor b1) t) with (pcommit (mb_depth b1) (mb_cofactor b1) t1).
  2: { unfold pcommit, t. unfold width_of in C. rewrite (pjoin_phash _ _ _ _ C). reflexivity. }
  rewrite b32_eqb_refl. reflexivity.
Qed.

Theorem merge_reveal_unrelated md b1 b2 t1 t2 :
  block_tree b1 t1 -> block_tree b2 t2 ->
  pcommit (mb_depth b1) (mb_cofactor b1) t1 <> pcommit (mb_depth b2) (mb_cofactor b2) t2 ->
  merge_reveal md b1 b2 =
  Ret (b1, Err (UnrelatedBlocks (pcommit (mb_depth b1) (mb_cofactor b1) t1)
                                (pcommit (mb_depth b2) (mb_cofactor b2) t2))).
Proof.
  intros [HD [Hc [Hx Hw]]] [HD2 [Hc2 [Hx2 Hw2]]] N. unfold merge_reveal.
  rewrite (block_commit_id_ok md b1 t1 HD Hx (pwf_loose_of _ _ _ Hw)). cbn [bind].
  rewrite (block_commit_id_ok md b2 t2 HD2 Hx2 (pwf_loose_of _ _ _ Hw2)). cbn [bind].
  destruct (b32_eqb _ _) eqn:E; [apply b32_eqb_eq in E; contradiction|reflexivity].
Qed.

(** Either compatible, or a collision is exhibited. *)
Theorem merge_reveal_equal b1 b2 t1 t2 :
  block_tree b1 t1 -> block_tree b2 t2 ->
  pcommit (mb_depth b1) (mb_cofactor b1) t1 = pcommit (mb_depth b2) (mb_cofactor b2) t2 ->
  (mb_depth b1 = mb_depth b2 /\ mb_cofactor b1 = mb_cofactor b2 /\
   pcompat (width_of (mb_depth b1)) 0 t1 t2) \/
  collision_in (pcommit_pre (mb_depth b1) (mb_cofactor b1) t1 ++
                pcommit_pre (mb_depth b2) (mb_cofactor b2) t2).
Proof.
  intros [HD [Hc [Hx Hw]]] [HD2 [Hc2 [Hx2 Hw2]]] E. apply pcommit_inj; assumption.
Qed.

(** ** Any two blocks: what the assertions of merge_reveal guarantee *)
Theorem merge_reveal_ok_any md b1 b2 b n :
  merge_reveal md b1 b2 = Ret (b, Ok n) ->
  exists c, block_commit_id md b1 = Ret c /\ block_commit_id md b2 = Ret c /\
    block_commit_id md b = Ret c /\
    span_sum md (mb_depth b) (mb_cross_section b) 0 = Ret (width_of (mb_depth b)) /\
    mb_depth b = mb_depth b1 /\ mb_cofactor b = mb_cofactor b1 /\ mb_method b = mb_method b1 /\
    mb_entropy b = mb_entropy b1 /\ n = (N.of_nat (length (mb_cross_section b)) mod 2 ^ 16)%N.
Proof.
  unfold merge_reveal. intros E. apply bind_inv in E as [c1 [E1 E]]. apply bind_inv in E as [c2 [E2 E]].
  destruct (b32_eqb c1 c2) eqn:Ec; [|discriminate]. apply b32_eqb_eq in Ec. subst c2. cbn [negb] in E.
  apply bind_inv in E as [xs [_ E]]. destruct xs as [|x0 xs0]; [discriminate|].
  set (xs := x0 :: xs0) in *. apply bind_inv in E as [u [_ E]].
  apply bind_inv in E as [sum [Es E]]. apply bind_inv in E as [u2 [Eu E]].
  apply bind_inv in E as [c3 [E3 E]]. apply bind_inv in E as [u3 [Eu3 E]]. injection E as <- <-.
  unfold assert in Eu, Eu3. destruct (sum =? _)%N eqn:Q; [|discriminate].
  destruct (b32_eqb c1 c3) eqn:Q3; [|discriminate]. apply b32_eqb_eq in Q3. subst c3.
  apply N.eqb_eq in Q. subst sum. exists c1. repeat split; assumption.
Qed.

(** The sum in exact arithmetic *)
Fixpoint span_total (D : nat) (xs : list tree_node) : N :=
  match xs with
  | [] => 0
  | n :: r => 2 ^ N.of_nat (D - tn_depth_or n D) + span_total D r
  end%N.

Lemma span_sum_debug D xs acc s :
  span_sum Debug D xs acc = Ret s ->
  (s = acc + span_total D xs)%N /\ Forall (fun n => tn_depth_or n D <= D) xs.
Proof.
  revert acc; induction xs as [|n xs IH]; intros acc E; cbn [span_sum] in E.
  - injection E as <-. cbn. split; [lia|constructor].
  - apply bind_inv in E as [h [E1 E]]. apply bind_inv in E as [p [E2 E]].
    apply bind_inv in E as [acc' [E3 E]]. unfold u8_sub in E1.
    destruct (tn_depth_or n D <=? D) eqn:L; [|discriminate]. injection E1 as <-.
    unfold u32_pow2 in E2. destruct (_ <? 32)%N; [|discriminate]. injection E2 as <-.
    unfold u32_add in E3. destruct (_ <? u32_lim)%N; [|discriminate]. injection E3 as <-.
    apply IH in E as [E F]. cbn [span_total]. split; [lia|]. constructor; [apply Nat.leb_le; exact L|exact F].
Qed.

End Merge.
