(** Release builds: the exact domain of the commitment id of a decoded block. *)
From Verif Require Import Base BaseFacts OrdMap OrdMapFacts SpecHash HashFacts Merkle MpcAtoms
  MpcTree MpcBlock SpecTree SpecBlock SpecValid TreeFacts ConcealProofs BlockInv PrefixProofs DerivedProofs SpecSettled.
Local Open Scope nat_scope.

Definition wrap (o : N) : N := (o mod 2 ^ 32)%N.

Section Settled.
Context {H : Hasher}.

Lemma width_sp D d : d <= D -> width_at D d = sp D d.
Proof. intros L. unfold width_at. replace (d <=? D) with true by (symmetry; apply Nat.leb_le; exact L). reflexivity. Qed.
Lemma width_twice D d : 1 <= d <= D -> (2 * width_at D d)%N = sp D (d - 1).
Proof. intros L. rewrite width_sp by lia. rewrite (sp_S D (d - 1)) by lia. replace (S (d - 1)) with d by lia. reflexivity. Qed.

Lemma span_width D d : D <= 31 -> d <= 32 -> node_span Release D d = Ret (width_at D d).
Proof.
  intros HD Hd. destruct (le_lt_dec d D) as [L|L].
  - rewrite node_span_ok, width_sp by assumption. reflexivity.
  - unfold node_span, u32_sub, width_at. replace (d <=? D) with false by (symmetry; apply Nat.leb_gt; exact L).
    replace (N.of_nat d <=? N.of_nat D)%N with false by (symmetry; apply N.leb_gt; lia). cbn [bind]. unfold u32_pow2.
    replace (_ <? 32)%N with false; [reflexivity|]. symmetry. apply N.ltb_ge. change u32_lim with 4294967296%N. lia.
Qed.
Lemma add_wrap o s : u32_add Release (wrap o) s = Ret (wrap (o + s)).
Proof.
  unfold u32_add, wrap. change u32_lim with (2 ^ 32)%N. destruct (_ <? _)%N eqn:E.
  - apply N.ltb_lt in E. f_equal. rewrite <- (N.mod_small _ _ E), N.add_mod_idemp_l by discriminate. reflexivity.
  - rewrite N.add_mod_idemp_l by discriminate. reflexivity.
Qed.
Lemma rem_wrap D d o : D <= 31 -> (wrap o mod sp D d = o mod sp D d)%N.
Proof.
  intros HD. unfold wrap. pose proof (sp_pos D d) as P.
  assert (E : (2 ^ 32 = sp D d * 2 ^ N.of_nat (32 - (D - d)))%N).
  { unfold sp. rewrite <- N.pow_add_r. f_equal. lia. }
  rewrite (N.div_mod o (2 ^ 32)) at 2 by discriminate. rewrite E at 2.
  rewrite <- N.mul_assoc, N.mul_comm, N.add_comm, N.mod_add by lia. reflexivity.
Qed.

Definition conc_only (xs : list tree_node) : Prop :=
  Forall (fun n => match n with ConcealedNode d _ => d <= 31 | _ => False end) xs.

Notation put n := (fun x => let '(r, o', c') := x in Ret (n :: r, o', c')).

Lemma pass_keep D d h rest o c :
  D <= 31 -> d <= 32 -> (head_conc_at d rest = true -> 1 <= d <= D /\ (o mod sp D (d - 1) <> 0)%N) ->
  pass1 Release D (ConcealedNode d h :: rest) (wrap o) c =
  bind (pass1 Release D rest (wrap (o + width_at D d)) c) (put (ConcealedNode d h)).
Proof.
  intros HD Hd Hc.
  assert (Hs : forall X : outcome (list tree_node * N * N), X = bind (node_span Release D d) (fun s => bind (u32_add Release (wrap o) s) (fun o' =>
            bind (pass1 Release D rest o' c) (put (ConcealedNode d h)))) ->
          X = bind (pass1 Release D rest (wrap (o + width_at D d)) c) (put (ConcealedNode d h))).
  { intros X ->. rewrite span_width by assumption. cbn [bind]. rewrite add_wrap. reflexivity. }
  apply Hs. cbn [pass1]. destruct rest as [|[d2 h2|p2 m2] rest2]; try reflexivity.
  destruct (d =? d2) eqn:E; [|reflexivity]. cbn in Hc. apply Nat.eqb_eq in E; subst d2.
  rewrite Nat.eqb_refl in Hc. destruct (Hc eq_refl) as [L N].
  unfold u5_sub. replace (1 <=? d) with true by (symmetry; apply Nat.leb_le; lia). cbn [bind].
  rewrite node_span_ok by lia. cbn [bind]. unfold u32_rem. pose proof (sp_pos D (d - 1)).
  replace (sp D (d - 1) =? 0)%N with false by (symmetry; apply N.eqb_neq; lia).
  cbn [bind]. rewrite rem_wrap by exact HD.
  replace ((o mod sp D (d - 1) =? 0)%N) with false by (symmetry; apply N.eqb_neq; exact N). reflexivity.
Qed.

Lemma pass_join D d a b rest o c :
  D <= 31 -> d <= D -> (o mod sp D d = 0)%N ->
  pass1 Release D (ConcealedNode (S d) a :: ConcealedNode (S d) b :: rest) (wrap o) c =
  bind (pass1 Release D rest (wrap (o + sp D d)) (c + 1)%N)
    (put (ConcealedNode d (HASH (s_branch d (width_of D) a b)))).
Proof.
  intros HD Hd Hm. cbn [pass1]. rewrite Nat.eqb_refl. unfold u5_sub.
  replace (1 <=? S d) with true by reflexivity. cbn [bind]. replace (S d - 1) with d by lia.
  rewrite node_span_ok by lia. cbn [bind]. unfold u32_rem. pose proof (sp_pos D d).
  replace (sp D d =? 0)%N with false by (symmetry; apply N.eqb_neq; lia).
  cbn [bind]. rewrite rem_wrap, Hm by exact HD. cbn [N.eqb negb]. rewrite add_wrap. reflexivity.
Qed.

Lemma pass_split D d h rest o c ys o' c' :
  D <= 31 -> d <= 31 ->
  pass1 Release D (ConcealedNode d h :: rest) (wrap o) c = Ret (ys, o', c') ->
  (exists ys', ys = ConcealedNode d h :: ys' /\ pass1 Release D rest (wrap (o + width_at D d)) c = Ret (ys', o', c') /\
     (head_conc_at d rest = true -> 1 <= d <= D /\ (o mod sp D (d - 1) <> 0)%N)) \/
  (exists e h2 rest' ys', d = S e /\ e <= D /\ rest = ConcealedNode (S e) h2 :: rest' /\ (o mod sp D e = 0)%N /\
     ys = ConcealedNode e (HASH (s_branch e (width_of D) h h2)) :: ys' /\
     pass1 Release D rest' (wrap (o + sp D e)) (c + 1)%N = Ret (ys', o', c')).
Proof.
  intros HD Hd E. destruct (head_conc_at d rest) eqn:Hh.
  - destruct rest as [|[d2 h2|p m] rest']; try discriminate. cbn in Hh. apply Nat.eqb_eq in Hh. subst d2.
    destruct d as [|e]; [cbn in E; discriminate|].
    destruct (le_lt_dec e D) as [L|L].
    + destruct (N.eq_dec (o mod sp D e) 0) as [Z|Z].
      * right. rewrite pass_join in E by assumption. apply bind_inv in E as [[[ys' o1] c1] [E1 E2]].
        injection E2 as <- <- <-. exists e, h2, rest', ys'. repeat split; auto.
      * left. destruct (le_lt_dec (S e) D) as [L1|L1].
        -- rewrite pass_keep in E.
           2: exact HD. 2: lia. 2: (intros _; replace (S e - 1) with e by lia; split; [lia|exact Z]).
           apply bind_inv in E as [[[ys' o1] c1] [E1 E2]].
           injection E2 as <- <- <-. exists ys'. repeat split; auto; [lia|]. replace (S e - 1) with e by lia. exact Z.
        -- exfalso. apply Z. replace e with D by lia. unfold sp. rewrite Nat.sub_diag. apply N.mod_1_r.
    + exfalso. cbn [pass1] in E. rewrite Nat.eqb_refl in E. unfold u5_sub in E. cbn [Nat.leb bind] in E.
      replace (S e - 1) with e in E by lia. rewrite span_width in E by lia. cbn [bind] in E. unfold width_at in E.
      replace (e <=? D) with false in E by (symmetry; apply Nat.leb_gt; exact L). discriminate.
  - left. rewrite pass_keep in E by (try assumption; try lia; rewrite Hh; discriminate).
    apply bind_inv in E as [[[ys' o1] c1] [E1 E2]]. injection E2 as <- <- <-.
    exists ys'. repeat split; auto; discriminate.
Qed.

(** ** A pass over settled subtrees *)
Lemma pass_subtree D t d rest o c :
  D <= 31 -> pwf_loose D d t -> is_conc t = false -> (o mod sp D d = 0)%N ->
  d <= D /\
  pass1 Release D (flatten d t ++ rest) (wrap o) c =
  bind (pass1 Release D rest (wrap (o + sp D d)) (c + pmerges t)%N)
    (fun x => let '(r, o', c') := x in Ret (flatten d (pstep (width_of D) d t) ++ r, o', c')).
Proof.
  intros HD. revert d rest o c.
  induction t as [h|p m|l IHl r IHr]; intros d rest o c Hw Hc Ha.
  - discriminate.
  - cbn in Hw. subst d. split; [lia|]. cbn [flatten app pass1 pstep pmerges].
    assert (Hsp : sp D D = 1%N) by (unfold sp; rewrite Nat.sub_diag; reflexivity).
    rewrite Hsp, add_wrap. cbn [bind]. rewrite N.add_0_r. reflexivity.
  - cbn [pwf_loose] in Hw. destruct Hw as [Wl Wr].
    destruct (is_conc l && is_conc r) eqn:Elr.
    + destruct l as [a|?|?], r as [b|?|?]; try discriminate. clear IHl IHr Elr.
      cbn in Wl. split; [lia|]. cbn [flatten app pstep pmerges].
      apply pass_join; [exact HD|lia|exact Ha].
    + rewrite (pstep_br _ _ _ _ Elr), (pmerges_br _ _ Elr). cbn [flatten].
      rewrite <- app_assoc.
      assert (L : S d <= D).
      { assert (G : forall x, is_conc x = false -> pwf_loose D (S d) x -> S d <= D).
        { intros x Hx. destruct x as [?|?|x1 x2]; cbn; [discriminate|lia|].
          intros [A _]. clear -A. assert (B : forall y e, pwf_loose D e y -> e <= S D).
          { induction y as [?|?|y1 I1 y2 I2]; cbn; intros e; [lia|lia|]. intros [Q _]. apply I1 in Q. lia. }
          apply B in A. lia. }
        destruct (is_conc l) eqn:E1; [apply (G r); [exact Elr|exact Wr]|apply (G l); assumption]. }
      split; [lia|].
      pose proof (sp_S D d L) as HS. pose proof (sp_pos D (S d)) as HP.
      destruct (aligned_right D d o L Ha) as [Ar Ao].
      pose proof (aligned_S D d o L Ha) as Al.
      assert (HR : forall c, pass1 Release D (flatten (S d) r ++ rest) (wrap (o + sp D (S d))) c =
        bind (pass1 Release D rest (wrap (o + sp D d)) (c + pmerges r)%N)
          (fun x => let '(y, o', c') := x in
             Ret (flatten (S d) (pstep (width_of D) (S d) r) ++ y, o', c'))).
      { intros c0. replace (o + sp D d)%N with (o + sp D (S d) + sp D (S d))%N by lia.
        destruct (is_conc r) eqn:Er.
        - destruct r as [b|?|?]; try discriminate. cbn [flatten app pstep pmerges].
          rewrite N.add_0_r. rewrite pass_keep, width_sp; [reflexivity|lia|exact HD|lia|].
          intros _. replace (S d - 1) with d by lia. split; [lia|exact Ao].
        - apply IHr; [exact Wr|reflexivity|exact Ar]. }
      destruct (is_conc l) eqn:El.
      * destruct l as [a|?|?]; try discriminate. cbn [flatten app].
        rewrite pass_keep, width_sp; [|lia|exact HD|lia|].
        -- rewrite HR. rewrite bind_assoc. cbn [pmerges]. rewrite N.add_0_l. apply bind_ext.
           intros [[y o'] c']. reflexivity.
        -- rewrite flatten_head_br by exact Elr. discriminate.
      * destruct (IHl (S d) (flatten (S d) r ++ rest) o c Wl eq_refl Al) as [_ ->].
        rewrite HR. rewrite bind_assoc, N.add_assoc. apply bind_ext.
        intros [[y o'] c']. cbn [bind]. rewrite app_assoc. reflexivity.
Qed.

Definition step1 (D : nat) (x : nat * ptree) : nat * ptree := (fst x, pstep (width_of D) (fst x) (snd x)).
Fixpoint fmerges (F : list (nat * ptree)) : N := match F with [] => 0 | x :: r => pmerges (snd x) + fmerges r end.

Lemma edge_ge d t : d <= edge d t.
Proof. revert d; induction t as [h|p m|l IHl r IHr]; intros d; cbn; [lia|lia|]. specialize (IHl (S d)). lia. Qed.
Lemma loose_depth D d t : pwf_loose D d t -> d <= S D /\ edge d t <= S D.
Proof.
  revert d; induction t as [h|p m|l IHl r IHr]; intros d; cbn; [lia|lia|]. intros [A _]. apply IHl in A. lia.
Qed.
Lemma head_edge d e t rest : head_conc_at d (flatten e t ++ rest) = true -> edge e t = d.
Proof.
  revert e rest; induction t as [h|p m|l IHl r IHr]; intros e rest; cbn.
  - intros E. apply Nat.eqb_eq in E. exact E.
  - discriminate.
  - rewrite <- app_assoc. apply IHl.
Qed.
Lemma edge_step W d t : edge d (pstep W d t) <= edge d t.
Proof.
  revert d; induction t as [h|p m|l IHl r IHr]; intros d; try (cbn; lia).
  destruct (is_conc l && is_conc r) eqn:E.
  - destruct l, r; try discriminate. cbn. lia.
  - rewrite (pstep_br _ _ _ _ E). cbn [edge]. apply IHl.
Qed.

(** Nothing is aggregated across the end of a root. *)
Lemma settled_gap D o d F :
  d <= 31 -> settled D (o + width_at D d) d F -> head_conc_at d (frontiers F) = true ->
  1 <= d <= D /\ (o mod sp D (d - 1) <> 0)%N.
Proof.
  intros Hd S E. destruct F as [|[e u] r]; [discriminate|]. cbn [settled] in S. destruct S as [R [S1 [S2 _]]].
  cbn [frontiers flat_map fst snd] in E. apply head_edge in E.
  destruct (Nat.eq_dec e d) as [Q|Q].
  - subst e. destruct (S1 eq_refl) as [L N]. split; [exact L|].
    rewrite width_twice in N by exact L. replace (o + width_at D d - width_at D d)%N with o in N by lia. exact N.
  - pose proof (edge_ge e u). destruct u as [h|p m|l r']; cbn [edge] in E; try lia.
    destruct R as [Wf A]. pose proof (loose_depth _ _ _ Wf) as [_ B]. cbn [edge] in B.
    pose proof (edge_ge (S e) l).
    assert (NE : d <> S D) by (intros ->; apply S2; [reflexivity|exact E]).
    assert (L : 1 <= d <= D) by lia. split; [exact L|].
    rewrite !width_sp in A by lia. intros Z.
    assert (A' : ((o + sp D d) mod sp D (d - 1) = 0)%N).
    { revert A. assert (G : forall k e, d - 1 = e + k -> ((o + sp D d) mod sp D e = 0)%N -> ((o + sp D d) mod sp D (d - 1) = 0)%N).
      { induction k as [|k IH]; intros f K M.
        - replace (d - 1) with f by lia. exact M.
        - apply (IH (S f)); [lia|]. apply aligned_S; [lia|exact M]. }
      apply (G (d - 1 - e)). lia. }
    destruct (aligned_right D (d - 1) o) as [_ N]; [lia|exact Z|].
    replace (S (d - 1)) with d in N by lia. exact (N A').
Qed.

Lemma pass_forest D F : D <= 31 -> forall o prev c, conc_only (frontiers F) -> settled D o prev F ->
  exists o', pass1 Release D (frontiers F) (wrap o) c = Ret (frontiers (map (step1 D) F), o', (c + fmerges F)%N).
Proof.
  intros HD. induction F as [|[d t] F IH]; intros o prev c V S.
  - exists (wrap o). cbn. rewrite N.add_0_r. reflexivity.
  - cbn [settled] in S. destruct S as [R [_ [_ S]]]. unfold frontiers in V. cbn [flat_map fst snd] in V.
    apply Forall_app in V as [V1 V2]. fold (frontiers F) in V2.
    change (frontiers ((d, t) :: F)) with (flatten d t ++ frontiers F).
    change (frontiers (map (step1 D) ((d, t) :: F))) with (flatten d (pstep (width_of D) d t) ++ frontiers (map (step1 D) F)).
    cbn [fmerges fst snd]. destruct t as [h|p m|l r].
    + cbn in V1. inversion V1 as [|? ? Vd _]. cbn [flatten app pstep pmerges].
      destruct (IH _ _ c V2 S) as [o' E]. exists o'.
      rewrite pass_keep; [|exact HD|lia|].
      * rewrite E. reflexivity.
      * intros Hh. apply (settled_gap D o d F); assumption.
    + cbn in V1. inversion V1 as [|? ? Vd _]. destruct Vd.
    + destruct R as [Wf A]. pose proof (loose_depth _ _ _ (proj1 Wf)) as [Ld _].
      assert (Ld' : d <= D) by lia. rewrite width_sp in A, S by exact Ld'.
      destruct (IH _ _ (c + pmerges (PBr l r))%N V2 S) as [o' E]. exists o'.
      destruct (pass_subtree D (PBr l r) d (frontiers F) o c HD Wf eq_refl A) as [_ ->].
      rewrite E. cbn [bind]. rewrite N.add_assoc. reflexivity.
Qed.

Lemma step_rooted D o d t : rooted D o d t -> rooted D o d (pstep (width_of D) d t).
Proof.
  destruct t as [h|p m|l r]; intros R; try exact R. destruct R as [Wf A].
  pose proof (pstep_pwf_loose D (width_of D) d _ Wf) as W'.
  destruct (pstep (width_of D) d (PBr l r)) as [h|p m|l' r'] eqn:E; cbn [rooted]; [exact I|exact W'|split; assumption].
Qed.
Lemma step_settled D F : forall o prev, settled D o prev F -> settled D o prev (map (step1 D) F).
Proof.
  induction F as [|[d t] F IH]; intros o prev S; [exact I|]. cbn [settled map step1 fst snd] in *.
  destruct S as [R [S1 [S2 S3]]]. split; [apply step_rooted; exact R|]. split; [exact S1|].
  split; [|apply IH; exact S3]. intros P Q. apply (S2 P).
  pose proof (edge_step (width_of D) d t). destruct t as [h|p m|l r]; [exact Q|exact Q|].
  destruct R as [Wf _]. apply loose_depth in Wf. lia.
Qed.

Lemma conc_flatten d t : conc_only (flatten d t) -> pleaves t = [].
Proof.
  revert d; induction t as [h|p m|l IHl r IHr]; intros d V; cbn in *; [reflexivity| |].
  - inversion V as [|? ? Q _]. destruct Q.
  - apply Forall_app in V as [A B]. rewrite (IHl _ A), (IHr _ B). reflexivity.
Qed.
Lemma no_merges_conc t : pleaves t = [] -> pmerges t = 0%N -> is_conc t = true.
Proof.
  induction t as [h|p m|l IHl r IHr]; cbn [pleaves]; intros L M; [reflexivity|discriminate|].
  apply app_eq_nil in L as [L1 L2].
  destruct (is_conc l && is_conc r) eqn:E.
  - destruct l, r; try discriminate.
  - rewrite (pmerges_br _ _ E) in M. rewrite IHl, IHr in E by (try assumption; lia). discriminate.
Qed.

Lemma conc_step D d t : d <= 31 -> conc_only (flatten d t) -> conc_only (flatten d (pstep (width_of D) d t)).
Proof.
  revert d; induction t as [h|p m|l IHl r IHr]; intros d L V; try exact V.
  cbn [flatten] in V. apply Forall_app in V as [A B].
  assert (L' : forall t e, conc_only (flatten e t) -> e <= 31).
  { clear. induction t as [h|p m|l IHl r IHr]; intros e V; cbn in V.
    - inversion V; assumption.
    - inversion V as [|? ? Q _]. destruct Q.
    - apply Forall_app in V as [V _]. apply IHl in V. lia. }
  destruct (is_conc l && is_conc r) eqn:E.
  - destruct l, r; try discriminate. cbn. constructor; [exact L|constructor].
  - rewrite (pstep_br _ _ _ _ E). cbn [flatten]. apply Forall_app. split; [apply IHl|apply IHr]; try assumption; eapply L'; eassumption.
Qed.
Lemma conc_forest D F : conc_only (frontiers F) -> conc_only (frontiers (map (step1 D) F)).
Proof.
  induction F as [|[d t] F IH]; intros V; [exact V|]. cbn [frontiers flat_map map fst snd step1] in *.
  apply Forall_app in V as [A B]. apply Forall_app. split; [|apply IH; exact B].
  apply conc_step; [|exact A].
  assert (L' : forall t e, conc_only (flatten e t) -> e <= 31).
  { clear. induction t as [h|p m|l IHl r IHr]; intros e V; cbn in V.
    - inversion V; assumption.
    - inversion V as [|? ? Q _]. destruct Q.
    - apply Forall_app in V as [V _]. apply IHl in V. lia. }
  eapply L'. exact A.
Qed.
Lemma forest_length D F : (N.of_nat (length (frontiers (map (step1 D) F))) + fmerges F = N.of_nat (length (frontiers F)))%N.
Proof.
  induction F as [|[d t] F IH]; [reflexivity|]. cbn [frontiers flat_map map fst snd step1 fmerges] in *.
  fold (frontiers F) (frontiers (map (step1 D) F)) in *. rewrite !app_length.
  pose proof (pstep_length (width_of D) d t). unfold frontiers in *. lia.
Qed.

Lemma no_merges_forest F : conc_only (frontiers F) -> fmerges F = 0%N ->
  map (fun n => tn_depth_or n 0) (frontiers F) = map fst F.
Proof.
  induction F as [|[d t] F IH]; intros V Z; [reflexivity|]. cbn [fmerges snd] in Z.
  change (frontiers ((d, t) :: F)) with (flatten d t ++ frontiers F) in *. apply Forall_app in V as [V1 V2].
  pose proof (no_merges_conc t (conc_flatten _ _ V1) ltac:(lia)) as C.
  destruct t as [h|?|?]; try discriminate. cbn [flatten app map fst tn_depth_or tn_depth]. f_equal. apply IH; [exact V2|lia].
Qed.
Lemma no_merges_steps D F : fmerges F = 0%N -> map (step1 D) F = F.
Proof.
  induction F as [|[d t] F IH]; intros Z; [reflexivity|]. cbn [fmerges snd] in Z. cbn [map]. unfold step1 at 1. cbn [fst snd].
  rewrite pmerges_step, IH by lia. reflexivity.
Qed.

Lemma loop_forest D : D <= 31 -> forall fuel F c,
  conc_only (frontiers F) -> settled D 0 (S (S D)) F -> length (frontiers F) < fuel ->
  exists ys n, conceal_loop fuel Release D (frontiers F) c = Ret (ys, n) /\ conc_only ys /\
    map (fun n => tn_depth_or n 0) ys = map fst F.
Proof.
  intros HD. induction fuel as [|fuel IH]; intros F c V ST L; [lia|].
  cbn [conceal_loop debug_assert bind].
  destruct (pass_forest D F HD 0%N _ c V ST) as [o' E]. change (wrap 0) with 0%N in E.
  rewrite pass_pass1, E. cbn [bind]. destruct (c + fmerges F =? c)%N eqn:Z.
  - apply N.eqb_eq in Z. assert (Z' : fmerges F = 0%N) by lia. rewrite no_merges_steps by exact Z'.
    exists (frontiers F), (c + fmerges F)%N. split; [reflexivity|]. split; [exact V|]. apply no_merges_forest; assumption.
  - apply N.eqb_neq in Z. pose proof (forest_length D F) as FL.
    destruct (IH (map (step1 D) F) (c + fmerges F)%N) as [ys [n [G1 [G2 G3]]]].
    + apply conc_forest. exact V.
    + apply step_settled. exact ST.
    + lia.
    + exists ys, n. split; [exact G1|]. split; [exact G2|]. rewrite G3, map_map. reflexivity.
Qed.

(** ** Passes backwards *)
Fixpoint nopair (D : nat) (xs : list tree_node) : Prop :=
  match xs with
  | [] => True
  | n :: tl => (head_conc_at (S D) [n] = true -> head_conc_at (S D) tl = false) /\ nopair D tl
  end.

Lemma pass_shape D xs : D <= 31 -> forall o c ys o' c', conc_only xs ->
  pass1 Release D xs (wrap o) c = Ret (ys, o', c') ->
  nopair D ys /\ conc_only ys /\ (c <= c')%N /\ (xs <> [] -> ys <> []) /\
  (head_conc_at (S D) ys = true -> head_conc_at (S D) xs = true).
Proof.
  intros HD. remember (length xs) as n eqn:En. revert xs En.
  induction n as [n IH] using (well_founded_induction lt_wf). intros xs -> o c ys o' c' V E.
  destruct xs as [|[d h|p m] tl].
  - cbn in E. injection E as <- _ <-. repeat split; try constructor; auto; try lia. 
  - inversion V as [|? ? Vd Vt]; subst. destruct (pass_split _ _ _ _ _ _ _ _ _ HD Vd E) as [[ys' [-> [E1 G]]]|[e [h2 [r' [ys' [-> [L [-> [A [-> E1]]]]]]]]]].
    + destruct (IH (length tl) ltac:(cbn; lia) tl eq_refl _ _ _ _ _ Vt E1) as [I1 [I2 [I3 [I4 I5]]]].
      repeat split.
      * intros Q. cbn in Q. apply Nat.eqb_eq in Q. subst d. destruct (head_conc_at (S D) ys') eqn:X; [|reflexivity].
        specialize (G (I5 eq_refl)). lia.
      * exact I1.
      * constructor; assumption.
      * exact I3.
      * discriminate.
      * intros Q. exact Q.
    + inversion Vt as [|? ? _ Vr]; subst.
      destruct (IH (length r') ltac:(cbn; lia) r' eq_refl _ _ _ _ _ Vr E1) as [I1 [I2 [I3 [I4 I5]]]].
      repeat split.
      * intros Q. cbn in Q. apply Nat.eqb_eq in Q. lia.
      * exact I1.
      * constructor; [lia|assumption].
      * lia.
      * discriminate.
      * intros Q. cbn in Q. apply Nat.eqb_eq in Q. lia.
  - inversion V as [|? ? Q _]. destruct Q.
Qed.

Lemma nopair_app D xs ys : nopair D (xs ++ ys) -> nopair D ys.
Proof. induction xs as [|x xs IH]; cbn; [auto|]. intros [_ P]. auto. Qed.

Lemma nopair_pwf D t : forall d rest, pwf_loose D d t -> d <= D -> nopair D (flatten d t ++ rest) -> pwf D d t.
Proof.
  induction t as [h|p m|l IHl r IHr]; intros d rest Wf L P.
  - exact L.
  - exact Wf.
  - cbn [pwf_loose pwf flatten] in *. destruct Wf as [Wl Wr]. rewrite <- app_assoc in P.
    destruct (le_lt_dec (S d) D) as [L'|L'].
    + split; [eapply IHl; eassumption|]. apply nopair_app in P. eapply IHr; eassumption.
    + exfalso. assert (d = D) by lia. subst d.
      assert (G : forall t, pwf_loose D (S D) t -> exists h, t = PConc h).
      { clear. intros [h|p m|l r]; cbn; [eauto|lia|]. intros [A _]. apply loose_depth in A. lia. }
      destruct (G l Wl) as [a ->]. destruct (G r Wr) as [b ->]. cbn [flatten app nopair head_conc_at] in P.
      destruct P as [P _]. rewrite Nat.eqb_refl in P. specialize (P eq_refl). discriminate.
Qed.

Lemma unpass_subtree D t : D <= 31 -> forall d xs rest o c o' c', pwf D d t -> conc_only xs ->
  pass1 Release D xs (wrap o) c = Ret (flatten d t ++ rest, o', c') ->
  exists t' xs' c2, xs = flatten d t' ++ xs' /\ pwf_loose D d t' /\
    pass1 Release D xs' (wrap (o + sp D d)) c2 = Ret (rest, o', c') /\
    (is_conc t' = true \/ is_conc t = false \/ (o mod sp D d = 0)%N).
Proof.
  intros HD. induction t as [h|p m|l IHl r IHr]; intros d xs rest o c o' c' Wf V E.
  - cbn in Wf. destruct xs as [|[d1 h1|p m] tl]; [cbn in E; discriminate| |inversion V as [|? ? Q _]; destruct Q].
    inversion V as [|? ? Vd Vt]; subst.
    destruct (pass_split _ _ _ _ _ _ _ _ _ HD Vd E) as [[ys' [Q [E1 G]]]|[e [h2 [r' [ys' [-> [L [-> [A [Q E1]]]]]]]]]].
    + cbn in Q. injection Q as <- <- <-. exists (PConc h), tl, c. rewrite width_sp in E1 by exact Wf.
      repeat split; auto. cbn. lia.
    + cbn in Q. injection Q as Q1 Q2 Q3. subst e ys'. exists (PBr (PConc h1) (PConc h2)), r', (c + 1)%N.
      repeat split; auto; cbn; lia.
  - destruct xs as [|[d1 h1|p1 m1] tl]; [cbn in E; discriminate| |inversion V as [|? ? Q _]; destruct Q].
    inversion V as [|? ? Vd Vt]; subst.
    destruct (pass_split _ _ _ _ _ _ _ _ _ HD Vd E) as [[ys' [Q _]]|[e [h2 [r' [ys' [_ [_ [_ [_ [Q _]]]]]]]]]]; discriminate.
  - cbn [pwf flatten] in *. destruct Wf as [Wl Wr]. rewrite <- app_assoc in E.
    pose proof (pwf_depth _ _ _ Wl) as L.
    destruct (IHl _ _ _ _ _ _ _ Wl V E) as [l' [x1 [c1 [-> [Ll [E1 _]]]]]].
    apply Forall_app in V as [_ V].
    destruct (IHr _ _ _ _ _ _ _ Wr V E1) as [r' [x2 [c2 [-> [Lr [E2 _]]]]]].
    exists (PBr l' r'), x2, c2. cbn [flatten pwf_loose is_conc]. rewrite app_assoc.
    replace (o + sp D (S d) + sp D (S d))%N with (o + sp D d)%N in E2 by (rewrite (sp_S D d) by lia; lia).
    split; [reflexivity|]. split; [split; assumption|]. split; [exact E2|]. right. left. reflexivity.
Qed.

Lemma edge_head d t rest : conc_only (flatten d t ++ rest) -> head_conc_at (edge d t) (flatten d t ++ rest) = true.
Proof.
  revert d rest; induction t as [h|p m|l IHl r IHr]; intros d rest V; cbn.
  - apply Nat.eqb_refl.
  - inversion V as [|? ? Q _]. destruct Q.
  - cbn [flatten] in V. rewrite <- app_assoc in *. apply IHl. exact V.
Qed.

Lemma unpass_forest D F' : D <= 31 -> forall o prev xs c o' c', conc_only xs ->
  pass1 Release D xs (wrap o) c = Ret (frontiers F', o', c') -> nopair D (frontiers F') ->
  settled D o prev F' -> (prev = S D -> head_conc_at (S D) xs = false) ->
  exists F, xs = frontiers F /\ settled D o prev F /\ map fst F = map fst F'.
Proof.
  intros HD. induction F' as [|[d u] r IH]; intros o prev xs c o' c' V E P S Hp.
  - destruct (pass_shape D xs HD _ _ _ _ _ V E) as [_ [_ [_ [N _]]]].
    destruct xs as [|n xs]; [|exfalso; apply N; [discriminate|reflexivity]].
    exists []. repeat split.
  - change (frontiers ((d, u) :: r)) with (flatten d u ++ frontiers r) in *.
    cbn [settled] in S. destruct S as [R [S1 [S2 S3]]].
    destruct (le_lt_dec d D) as [L|L].
    + assert (Wu : pwf D d u).
      { destruct u as [h|p m|a b]; [exact L|exact R|]. destruct R as [Wf _]. eapply nopair_pwf; eassumption. }
      destruct (unpass_subtree D u HD _ _ _ _ _ _ _ Wu V E) as [t' [xs' [c2 [-> [Wf [E2 A]]]]]].
      rewrite width_sp in S3 by exact L.
      pose proof V as V'. apply Forall_app in V' as [_ Vx].
      destruct (IH _ d _ _ _ _ Vx E2 (nopair_app _ _ _ P) S3 ltac:(lia)) as [F [-> [SF MF]]].
      exists ((d, t') :: F). split; [reflexivity|]. split; [|cbn; rewrite MF; reflexivity].
      cbn [settled]. rewrite (width_sp D d L) in *.
      split; [|split; [exact S1|split; [|exact SF]]].
      * destruct t' as [h|p m|a b]; [exact I|exact Wf|]. cbn [rooted]. split; [exact Wf|]. rewrite width_sp by exact L.
        destruct A as [A|[A|A]]; [discriminate| |exact A].
        destruct u as [h|p m|a' b']; [discriminate| |].
        -- cbn in R. subst d. unfold sp. rewrite Nat.sub_diag. apply N.mod_1_r.
        -- cbn [rooted] in R. rewrite width_sp in R by exact L. tauto.
      * intros Q1 Q2. specialize (Hp Q1). rewrite <- Q2, edge_head in Hp by exact V. discriminate.
    + destruct u as [h|p m|a b].
      * destruct xs as [|[d1 h1|p m] tl]; [cbn in E; discriminate| |inversion V as [|? ? Q _]; destruct Q].
        inversion V as [|? ? Vd Vt]; subst.
        destruct (pass_split _ _ _ _ _ _ _ _ _ HD Vd E) as [[ys' [Q [E1 G]]]|[e [h2 [r' [ys' [_ [Le [_ [_ [Q _]]]]]]]]]].
        2: { cbn in Q. injection Q as Q1 _ _. lia. }
        cbn in Q. injection Q as Q1 Q2 Q3. subst d1 h1 ys'.
        destruct (IH _ d _ _ _ _ Vt E1 (nopair_app _ [ConcealedNode d h] _ P) S3) as [F [-> [SF MF]]].
        { intros ->. destruct (head_conc_at (S D) tl) eqn:X; [|reflexivity]. specialize (G eq_refl). lia. }
        exists ((d, PConc h) :: F). split; [reflexivity|]. split; [|cbn; rewrite MF; reflexivity].
        cbn [settled]. split; [exact I|split; [exact S1|split; [exact S2|exact SF]]].
      * cbn in R. lia.
      * destruct R as [[Wf _] _]. apply loose_depth in Wf. lia.
Qed.

Definition single (n : tree_node) : nat * ptree :=
  match n with ConcealedNode d h => (d, PConc h) | CommitmentLeaf p m => (0, PLeaf p m) end.
Lemma single_frontiers xs : frontiers (map single xs) = xs.
Proof.
  induction xs as [|[d h|p m] xs IH]; [reflexivity| |]; cbn [map single]; unfold frontiers in *; cbn [flat_map fst snd flatten app];
    rewrite IH; reflexivity.
Qed.

Lemma rest_settled D xs : D <= 31 -> forall o prev c ys o', conc_only xs ->
  pass1 Release D xs (wrap o) c = Ret (ys, o', c) ->
  (head_conc_at prev xs = true -> 1 <= prev <= D /\ ((o - width_at D prev) mod sp D (prev - 1) <> 0)%N) ->
  ys = xs /\ settled D o prev (map single xs).
Proof.
  intros HD. induction xs as [|[d h|p m] tl IH]; intros o prev c ys o' V E Hp.
  - cbn in E. injection E as <- _. split; [reflexivity|exact I].
  - inversion V as [|? ? Vd Vt]; subst.
    destruct (pass_split _ _ _ _ _ _ _ _ _ HD Vd E) as [[ys' [-> [E1 G]]]|[e [h2 [r' [ys' [-> [L [-> [A [-> E1]]]]]]]]]].
    + destruct (IH _ d _ _ _ Vt E1) as [-> SI].
      { intros Q. replace (o + width_at D d - width_at D d)%N with o by lia. exact (G Q). }
      split; [reflexivity|]. cbn [map single settled rooted edge].
      assert (K : d = prev -> 1 <= d <= D /\ ((o - width_at D d) mod (2 * width_at D d) <> 0)%N).
      { intros ->. destruct (Hp ltac:(cbn; apply Nat.eqb_refl)) as [K1 K2]. rewrite width_twice by exact K1. auto. }
      split; [exact I|split; [exact K|split; [|exact SI]]]. intros Q1 Q2. subst. specialize (K eq_refl). lia.
    + inversion Vt as [|? ? _ Vr]; subst. destruct (pass_shape D r' HD _ _ _ _ _ Vr E1) as [_ [_ [K _]]]. lia.
  - inversion V as [|? ? Q _]. destruct Q.
Qed.

Lemma unloop_forest D : D <= 31 -> forall fuel xs c h ys n, conc_only xs ->
  conceal_loop fuel Release D xs c = Ret (ConcealedNode 0 h :: ys, n) ->
  exists t r, xs = frontiers ((0, t) :: r) /\ settled D 0 (S (S D)) ((0, t) :: r).
Proof.
  intros HD. induction fuel as [|fuel IH]; intros xs c h ys n V E; [discriminate|].
  cbn [conceal_loop debug_assert bind] in E. apply bind_inv in E as [[[xs' o] c1] [E1 E]].
  rewrite pass_pass1 in E1. change 0%N with (wrap 0) in E1.
  destruct (pass_shape D xs HD _ _ _ _ _ V E1) as [P [V' _]].
  destruct (c1 =? c)%N eqn:Z.
  - apply N.eqb_eq in Z. subst c1. injection E as Q0 Q1. subst xs' n.
    destruct (rest_settled D xs HD 0%N (S (S D)) c (ConcealedNode 0 h :: ys) o V E1) as [Q K].
    + intros X. exfalso. destruct (pass_split D (S (S D)) (match xs with ConcealedNode _ g :: _ => g | _ => h end) (tl xs) 0 c (ConcealedNode 0 h :: ys) o c HD) as [[ys' [Q _]]|[e [h2 [r' [ys' [Q [L _]]]]]]].
      * destruct xs as [|[d g|p m] tl]; cbn in X; try discriminate. apply Nat.eqb_eq in X. subst d.
        inversion V; assumption.
      * destruct xs as [|[d g|p m] tl]; cbn in X; try discriminate. apply Nat.eqb_eq in X. subst d. exact E1.
      * discriminate.
      * lia.
    + exists (PConc h), (map single ys). rewrite <- Q in K. split; [|exact K]. rewrite <- Q.
      change ((0, PConc h) :: map single ys) with (map single (ConcealedNode 0 h :: ys)). symmetry. apply single_frontiers.
  - destruct (IH _ _ _ _ _ V' E) as [t' [r' [-> K]]].
    destruct (unpass_forest D _ HD _ _ _ _ _ _ V E1 P K ltac:(lia)) as [F [-> [SF MF]]].
    destruct F as [|[d t] r]; [discriminate|]. injection MF as -> _. exists t, r. split; [reflexivity|exact SF].
Qed.

(** ** Concealing the leaves *)
Lemma keep_untree D t : forall d xs rest,
  map (keep_node D []) xs = flatten d t ++ rest ->
  exists t' xs', xs = flatten d t' ++ xs' /\ map (keep_node D []) xs' = rest /\ edge d t' = edge d t /\
    (pwf_loose D d t -> pwf_loose D d t') /\ (forall o, rooted D o d t -> rooted D o d t').
Proof.
  induction t as [h|p m|l IHl r IHr]; intros d xs rest E.
  - destruct xs as [|[e x|p m] xs]; cbn in E; [discriminate| |].
    + injection E as -> -> E. exists (PConc h), xs. auto 10.
    + injection E as Q1 Q2 E. subst d. exists (PLeaf p m), xs. cbn. auto 10.
  - destruct xs as [|[e x|p' m'] xs]; cbn in E; discriminate.
  - cbn in E. rewrite <- app_assoc in E.
    destruct (IHl _ _ _ E) as [l' [x1 [-> [E1 [El [Wl _]]]]]].
    destruct (IHr _ _ _ E1) as [r' [x2 [-> [E2 [Er [Wr _]]]]]].
    exists (PBr l' r'), x2. cbn. rewrite app_assoc. intuition.
Qed.
Lemma keep_unforest D F : forall o prev xs,
  map (keep_node D []) xs = frontiers F -> settled D o prev F ->
  exists F', xs = frontiers F' /\ settled D o prev F' /\ map fst F' = map fst F.
Proof.
  induction F as [|[d t] F IH]; intros o prev xs E S.
  - apply map_eq_nil in E. subst xs. exists []. repeat split.
  - change (frontiers ((d, t) :: F)) with (flatten d t ++ frontiers F) in E.
    destruct (keep_untree D t d xs _ E) as [t' [xs' [-> [E1 [Ee [_ R]]]]]].
    cbn [settled] in S. destruct S as [S0 [S1 [S2 S3]]].
    destruct (IH _ _ _ E1 S3) as [F' [-> [SF MF]]].
    exists ((d, t') :: F'). split; [reflexivity|]. split; [|cbn; rewrite MF; reflexivity].
    cbn [settled]. rewrite Ee. split; [apply R; exact S0|split; [exact S1|split; [exact S2|exact SF]]].
Qed.

Definition keep1 (x : nat * ptree) : nat * ptree := (fst x, pkeep (mem []) (snd x)).
Lemma keep_forest D F : forall o prev, settled D o prev F ->
  map (keep_node D []) (frontiers F) = frontiers (map keep1 F) /\ settled D o prev (map keep1 F).
Proof.
  induction F as [|[d t] F IH]; intros o prev S; [split; [reflexivity|exact I]|].
  cbn [settled] in S. destruct S as [S0 [S1 [S2 S3]]]. destruct (IH _ _ S3) as [I1 I2].
  change (frontiers ((d, t) :: F)) with (flatten d t ++ frontiers F).
  change (frontiers (map keep1 ((d, t) :: F))) with (flatten d (pkeep (mem []) t) ++ frontiers (map keep1 F)).
  assert (Ee : forall t e, edge e (pkeep (mem []) t) = edge e t).
  { clear. induction t as [h|p m|l IHl r IHr]; intros e; cbn; auto. }
  rewrite map_app, I1. split.
  - f_equal. destruct t as [h|p m|l r]; [reflexivity|apply keep_flatten; exact S0|apply keep_flatten; apply S0].
  - cbn [map keep1 settled fst snd]. rewrite Ee. split; [|split; [exact S1|split; [exact S2|exact I2]]].
    destruct t as [h|p m|l r]; [exact I|exact I|]. destruct S0 as [Wf A]. split; [|exact A].
    apply (pkeep_pwf_loose (mem []) D d (PBr l r)). exact Wf.
Qed.

Lemma kept_conc D xs : D <= 31 -> Forall valid_tree_node xs -> conc_only (map (keep_node D []) xs).
Proof.
  intros HD V. apply Forall_map. eapply Forall_impl; [|exact V]. intros [d h|p m]; cbn; auto.
Qed.

Lemma settled_first D t r :
  settled D 0 (S (S D)) ((0, t) :: r) <-> pwf_loose D 0 t /\ settled D (width_of D) 0 r.
Proof.
  cbn [settled]. rewrite (width_sp D 0), sp_0, N.add_0_l by lia. split.
  - intros [R [_ [_ S]]]. split; [|exact S]. destruct t as [h|p m|a b]; [cbn; lia|exact R|apply R].
  - intros [Wf S]. split; [|split; [intros Q; discriminate|split; [intros Q; lia|exact S]]].
    destruct t as [h|p m|a b]; [exact I|exact Wf|]. split; [exact Wf|]. apply N.mod_0_l.
    rewrite width_sp by lia. pose proof (sp_pos D 0). lia.
Qed.

Lemma settled_domain : forall b (valid : valid_block b),
  (exists c, block_commit_id Release b = Ret c) <->
  exists t rest, mb_cross_section b = flatten 0 t ++ frontiers rest /\ pwf_loose (mb_depth b) 0 t /\
    settled (mb_depth b) (2 ^ N.of_nat (mb_depth b)) 0 rest.
Proof.
  intros b [HD [_ [_ [V _]]]]. set (D := mb_depth b) in *. change (2 ^ N.of_nat D)%N with (width_of D).
  assert (M : missing [] (mb_cross_section b) = []) by (apply missing_nil; intros p []).
  pose proof (kept_conc D _ HD V) as VC.
  unfold block_commit_id, block_conceal. rewrite conceal_except_unfold, M. fold D. split.
  - intros [c E]. apply bind_inv in E as [mc [E0 _]]. apply bind_inv in E0 as [[c1 r] [E1 E]].
    apply bind_inv in E1 as [[xs' n] [E1 E2]]. injection E2 as <- <-.
    cbn [debug_assert bind with_cross_section mb_cross_section] in E.
    destruct xs' as [|[[|d] h|p m] xs']; try discriminate.
    destruct (unloop_forest D HD _ _ _ _ _ _ VC E1) as [t [r [Q S]]].
    destruct (keep_unforest D _ _ _ _ Q S) as [F [-> [SF MF]]].
    destruct F as [|[d t'] F]; [discriminate|]. injection MF as -> _.
    apply settled_first in SF as [Wf SF]. exists t', F. split; [reflexivity|]. split; assumption.
  - intros [t [rest [Q [Wf ST]]]]. pose proof (proj2 (settled_first D t rest) (conj Wf ST)) as SF.
    change (flatten 0 t ++ frontiers rest) with (frontiers ((0, t) :: rest)) in Q.
    destruct (keep_forest D _ _ _ SF) as [K1 K2]. rewrite <- Q in K1. rewrite K1 in VC.
    destruct (loop_forest D HD (S (length (mb_cross_section b))) (map keep1 ((0, t) :: rest)) (dropped [] (mb_cross_section b))
      VC K2) as [ys [n [E [VY MY]]]].
    { rewrite <- K1, map_length. lia. }
    destruct ys as [|[d h|p m] ys]; cbn in MY; [discriminate| |inversion VY as [|? ? X _]; destruct X].
    injection MY as -> _. rewrite K1, E. cbn [bind debug_assert with_cross_section mb_cross_section]. eexists. reflexivity.
Qed.

Lemma settled_value : forall b t rest (valid : valid_block b)
  (section : mb_cross_section b = flatten 0 t ++ frontiers rest) (leaves : pwf_loose (mb_depth b) 0 t)
  (remainder : settled (mb_depth b) (2 ^ N.of_nat (mb_depth b)) 0 rest),
  block_commit_id Release b = Ret (pcommit (mb_depth b) (mb_cofactor b) t).
Proof.
  intros b t rest Vb Q Wf S. destruct (proj2 (settled_domain b Vb)) as [c E]; [eauto|].
  destruct Vb as [HD [_ [_ [V _]]]].
  destruct (block_commit_prefix Release b c HD V E) as [t' [r' [Q' [Wf' ->]]]].
  rewrite Q in Q'. apply (flatten_prefix_unique (mb_depth b)) in Q' as [-> _]; [exact E|apply pwf_loose_deep; assumption|apply pwf_loose_deep; assumption].
Qed.

Lemma forests_eq D : forall F F' o prev o' prev', settled D o prev F -> settled D o' prev' F' ->
  map fst F = map fst F' -> frontiers F = frontiers F' -> F = F'.
Proof.
  assert (G : forall o d t, rooted D o d t -> leaves_deep D d t).
  { intros o d [h|p m|l r]; cbn [rooted]; [intros _; exact I|auto|]. intros [A _]. apply pwf_loose_deep. exact A. }
  induction F as [|[d t] F IH]; intros F' o prev o' prev' S1 S2 M E; destruct F' as [|[d' t'] F']; try discriminate; [reflexivity|].
  injection M as <- M. cbn [settled] in S1, S2. destruct S1 as [R1 [_ [_ S1]]], S2 as [R2 [_ [_ S2]]].
  change (flatten d t ++ frontiers F = flatten d t' ++ frontiers F') in E.
  apply (flatten_prefix_unique D) in E as [-> E]; [|eapply G; eassumption|eapply G; eassumption].
  f_equal. eapply IH; eassumption.
Qed.

Lemma settled_unique : forall b t rest t' rest' (valid : valid_block b)
  (section : mb_cross_section b = flatten 0 t ++ frontiers rest) (leaves : pwf_loose (mb_depth b) 0 t)
  (remainder : settled (mb_depth b) (2 ^ N.of_nat (mb_depth b)) 0 rest)
  (section' : mb_cross_section b = flatten 0 t' ++ frontiers rest') (leaves' : pwf_loose (mb_depth b) 0 t')
  (remainder' : settled (mb_depth b) (2 ^ N.of_nat (mb_depth b)) 0 rest'),
  t = t' /\ rest = rest'.
Proof.
  intros b t rest t' rest' [HD [_ [_ [V _]]]] Q1 W1 S1 Q2 W2 S2. set (D := mb_depth b) in *.
  pose proof (proj2 (settled_first D t rest) (conj W1 S1)) as F1.
  pose proof (proj2 (settled_first D t' rest') (conj W2 S2)) as F2.
  change (flatten 0 t ++ frontiers rest) with (frontiers ((0, t) :: rest)) in Q1.
  change (flatten 0 t' ++ frontiers rest') with (frontiers ((0, t') :: rest')) in Q2.
  pose proof (kept_conc D _ HD V) as VC.
  destruct (keep_forest D _ _ _ F1) as [K1 K2]. destruct (keep_forest D _ _ _ F2) as [L1 L2].
  rewrite <- Q1 in K1. rewrite <- Q2 in L1.
  set (f := S (length (mb_cross_section b))).
  destruct (loop_forest D HD f (map keep1 ((0, t) :: rest)) 0) as [ys [n [E1 [_ M1]]]];
    [rewrite <- K1; exact VC|exact K2|rewrite <- K1, map_length; unfold f; lia|].
  destruct (loop_forest D HD f (map keep1 ((0, t') :: rest')) 0) as [ys' [n' [E2 [_ M2]]]];
    [rewrite <- L1; exact VC|exact L2|rewrite <- L1, map_length; unfold f; lia|].
  rewrite <- K1 in E1. rewrite <- L1, E1 in E2. injection E2 as <- <-. rewrite M1, !map_map in M2.
  assert (E : (0, t) :: rest = (0, t') :: rest') by (eapply forests_eq; [exact F1|exact F2|exact M2|congruence]).
  injection E as -> ->. split; reflexivity.
Qed.

End Settled.

(** ** C121 *)
Lemma c121_domain : forall (H : Hasher) b (valid : valid_block b),
  (exists c, block_commit_id Release b = Ret c) <->
  exists t rest, mb_cross_section b = flatten 0 t ++ frontiers rest /\ pwf_loose (mb_depth b) 0 t /\
    settled (mb_depth b) (2 ^ N.of_nat (mb_depth b)) 0 rest.
Proof. exact @settled_domain. Qed.

Lemma c121_value : forall (H : Hasher) b t rest (valid : valid_block b)
  (section : mb_cross_section b = flatten 0 t ++ frontiers rest) (leaves : pwf_loose (mb_depth b) 0 t)
  (remainder : settled (mb_depth b) (2 ^ N.of_nat (mb_depth b)) 0 rest),
  block_commit_id Release b = Ret (pcommit (mb_depth b) (mb_cofactor b) t).
Proof. exact @settled_value. Qed.

Lemma c121_unique : forall (H : Hasher) b t rest t' rest' (valid : valid_block b)
  (section : mb_cross_section b = flatten 0 t ++ frontiers rest) (leaves : pwf_loose (mb_depth b) 0 t)
  (remainder : settled (mb_depth b) (2 ^ N.of_nat (mb_depth b)) 0 rest)
  (section' : mb_cross_section b = flatten 0 t' ++ frontiers rest') (leaves' : pwf_loose (mb_depth b) 0 t')
  (remainder' : settled (mb_depth b) (2 ^ N.of_nat (mb_depth b)) 0 rest'),
  t = t' /\ rest = rest'.
Proof. exact @settled_unique. Qed.
