(** The exact outcome of concealing any representable block. *)
From Verif Require Import Base BaseFacts OrdMap OrdMapFacts SpecHash HashFacts Merkle MpcAtoms
  MpcTree MpcBlock SpecTree SpecBlock SpecValid TreeFacts ConcealProofs BlockInv PrefixProofs ModeProofs DerivedProofs
  SpecSettled TheoremsSettled SpecResting.
Local Open Scope nat_scope.

Section Resting.
Context {H : Hasher}.

Notation put n := (fun x => let '(r, o', c') := x in Ret (n :: r, o', c')).
Notation okn := (Forall valid_tree_node).

Definition is_pleaf (t : ptree) : bool := match t with PLeaf _ _ => true | _ => false end.

Lemma resting_tree D o prev d t r : is_pleaf t = false -> resting D o prev ((d, t) :: r) =
  (pleaves t = [] /\ rooted D o d t /\
   (prev = Some d -> 1 <= d <= D /\ ((o - width_at D d) mod (2 * width_at D d) <> 0)%N) /\
   (prev = Some (S D) -> edge d t <> S D) /\ resting D (o + width_at D d) (Some d) r).
Proof. destruct t; [reflexivity|discriminate|reflexivity]. Qed.

Lemma width_leaf D : width_at D D = 1%N.
Proof. rewrite width_sp by lia. unfold sp. rewrite Nat.sub_diag. reflexivity. Qed.

Lemma resting_gap D o d F :
  d <= 31 -> resting D (o + width_at D d) (Some d) F -> head_conc_at d (frontiers F) = true ->
  1 <= d <= D /\ (o mod sp D (d - 1) <> 0)%N.
Proof.
  intros Hd ST E. destruct F as [|[e u] r]; [discriminate|].
  destruct (is_pleaf u) eqn:U; [destruct u; try discriminate; cbn in E; discriminate|].
  rewrite resting_tree in ST by exact U. destruct ST as [_ [R [S1 [S2 _]]]].
  apply (settled_gap D o d [(e, u)]); [exact Hd| |].
  - cbn [settled]. split; [exact R|]. split; [intros ->; apply S1; reflexivity|]. split; [intros ->; apply S2; reflexivity|exact I].
  - change (frontiers ((e, u) :: r)) with (flatten e u ++ frontiers r) in E. clear -E U.
    change (head_conc_at d (flatten e u ++ []) = true).
    revert e E. induction u as [h|p m|l IHl r' IHr]; intros e E.
    + exact E.
    + exact E.
    + clear IHr. cbn [flatten] in *. rewrite <- app_assoc in *.
      assert (G : forall t e X Y, head_conc_at d (flatten e t ++ X) = head_conc_at d (flatten e t ++ Y)).
      { clear. induction t as [h|p m|a IHa b IHb]; intros e X Y; [reflexivity|reflexivity|]. cbn [flatten]. rewrite <- !app_assoc. apply IHa. }
      rewrite (G _ _ _ (flatten (S e) r' ++ [])) in E. exact E.
Qed.

Lemma pass_rest D F : D <= 31 -> forall o prev c, okn (frontiers F) -> resting D o prev F ->
  pass1 Release D (frontiers F) (wrap o) c = Ret (frontiers (map (step1 D) F), wrap (o + breadth D F), (c + fmerges F)%N).
Proof.
  intros HD. induction F as [|[d t] F IH]; intros o prev c V ST.
  - cbn. rewrite !N.add_0_r. reflexivity.
  - unfold frontiers in V. cbn [flat_map fst snd] in V.
    apply Forall_app in V as [V1 V2]. fold (frontiers F) in V2.
    change (frontiers ((d, t) :: F)) with (flatten d t ++ frontiers F).
    change (frontiers (map (step1 D) ((d, t) :: F))) with (flatten d (pstep (width_of D) d t) ++ frontiers (map (step1 D) F)).
    change (breadth D ((d, t) :: F)) with (width_at D d + breadth D F)%N. rewrite N.add_assoc.
    cbn [fmerges fst snd]. destruct t as [h|p m|l r].
    + cbn in V1. inversion V1 as [|? ? Vd _]. cbn [flatten app pstep pmerges].
      rewrite resting_tree in ST by reflexivity. destruct ST as [_ [R [_ [_ ST]]]].
      rewrite pass_keep; [|exact HD|cbn in Vd; lia|].
      * rewrite (IH _ _ c V2 ST). reflexivity.
      * intros Hh. apply (resting_gap D o d F); assumption.
    + cbn [resting] in ST. destruct ST as [-> ST]. cbn [flatten app pass1 pstep pmerges]. rewrite add_wrap. cbn [bind].
      rewrite (IH _ _ c V2 ST), width_leaf. reflexivity.
    + rewrite resting_tree in ST by reflexivity. destruct ST as [_ [[Wf A] [_ [_ ST]]]].
      pose proof (loose_depth _ _ _ (proj1 Wf)) as [Ld _].
      assert (Ld' : d <= D) by lia. rewrite width_sp in A, ST |- * by exact Ld'.
      destruct (pass_subtree D (PBr l r) d (frontiers F) o c HD Wf eq_refl A) as [_ ->].
      rewrite (IH _ _ (c + pmerges (PBr l r))%N V2 ST). cbn [bind]. rewrite N.add_assoc. reflexivity.
Qed.

Lemma pleaf_step W d t : is_pleaf t = false -> is_pleaf (pstep W d t) = false.
Proof.
  destruct t as [h|p m|l r]; cbn [is_pleaf]; try discriminate; [reflexivity|]. intros _.
  destruct (is_conc l && is_conc r) eqn:E; [destruct l, r; try discriminate; reflexivity|]. rewrite (pstep_br _ _ _ _ E). reflexivity.
Qed.

Lemma step_resting D F : forall o prev, resting D o prev F -> resting D o prev (map (step1 D) F).
Proof.
  induction F as [|[d t] F IH]; intros o prev ST; [exact I|].
  destruct (is_pleaf t) eqn:U.
  - destruct t as [h|p m|l r]; try discriminate. cbn [map step1 fst snd pstep resting] in *. destruct ST as [E ST]. auto.
  - cbn [map]. unfold step1 at 1. cbn [fst snd].
    rewrite resting_tree in ST |- * by (try apply pleaf_step; exact U). destruct ST as [E [R [S1 [S2 S3]]]].
    rewrite pstep_leaves. split; [exact E|]. split; [apply step_rooted; exact R|]. split; [exact S1|].
    split; [|apply IH; exact S3]. intros P Q. apply (S2 P).
    pose proof (edge_step (width_of D) d t). destruct t as [h|p m|l r]; [exact Q|exact Q|].
    destruct R as [Wf _]. apply loose_depth in Wf. lia.
Qed.

Lemma ok_step W d t : okn (flatten d t) -> okn (flatten d (pstep W d t)).
Proof.
  revert d; induction t as [h|p m|l IHl r IHr]; intros d V; try exact V.
  cbn [flatten] in V. apply Forall_app in V as [A B].
  destruct (is_conc l && is_conc r) eqn:E.
  - destruct l, r; try discriminate. cbn in *. inversion A as [|? ? L _]. constructor; [cbn in *; lia|constructor].
  - rewrite (pstep_br _ _ _ _ E). cbn [flatten]. apply Forall_app. split; [apply IHl|apply IHr]; assumption.
Qed.
Lemma ok_forest D F : okn (frontiers F) -> okn (frontiers (map (step1 D) F)).
Proof.
  induction F as [|[d t] F IH]; intros V; [exact V|]. cbn [frontiers flat_map map fst snd step1] in *.
  apply Forall_app in V as [A B]. apply Forall_app. split; [|apply IH; exact B]. apply ok_step. exact A.
Qed.
Lemma breadth_step D F : breadth D (map (step1 D) F) = breadth D F.
Proof. induction F as [|x F IH]; [reflexivity|]. cbn. unfold breadth in IH. rewrite IH. reflexivity. Qed.
Lemma top_step D F : map (top (width_of D)) (map (step1 D) F) = map (top (width_of D)) F.
Proof.
  rewrite map_map. apply map_ext. intros [d t]. unfold top, step1. cbn [fst snd].
  destruct (is_pleaf t) eqn:U; [destruct t; try discriminate; reflexivity|].
  pose proof (pleaf_step (width_of D) d t U) as U'. pose proof (pstep_phash (width_of D) d t) as E.
  destruct t as [h|p m|l r]; try discriminate; [reflexivity|].
  destruct (pstep (width_of D) d (PBr l r)) as [h|p m|l' r']; try discriminate; rewrite E; reflexivity.
Qed.

Lemma no_merges_tops D F : forall o prev, resting D o prev F -> fmerges F = 0%N -> frontiers F = map (top (width_of D)) F.
Proof.
  induction F as [|[d t] F IH]; intros o prev ST Z; [reflexivity|]. cbn [fmerges snd] in Z.
  change (frontiers ((d, t) :: F)) with (flatten d t ++ frontiers F).
  destruct (is_pleaf t) eqn:U.
  - destruct t as [h|p m|l r]; try discriminate. cbn [resting] in ST. destruct ST as [_ ST]. cbn [flatten app map]. f_equal.
    eapply IH; [exact ST|lia].
  - rewrite resting_tree in ST by exact U. destruct ST as [E [_ [_ [_ ST]]]].
    pose proof (no_merges_conc t E ltac:(lia)) as C. destruct t as [h|?|?]; try discriminate.
    cbn [flatten app map]. f_equal. eapply IH; [exact ST|lia].
Qed.

Lemma loop_rest D : D <= 31 -> forall fuel F c,
  okn (frontiers F) -> resting D 0 None F -> length (frontiers F) < fuel ->
  conceal_loop fuel Release D (frontiers F) c =
    Ret (map (top (width_of D)) F, (c + (N.of_nat (length (frontiers F)) - N.of_nat (length F)))%N) /\ length F <= length (frontiers F).
Proof.
  intros HD. induction fuel as [|fuel IH]; intros F c V ST L; [lia|].
  cbn [conceal_loop debug_assert bind].
  pose proof (pass_rest D F HD 0%N _ c V ST) as E. change (wrap 0) with 0%N in E.
  rewrite pass_pass1, E. cbn [bind]. destruct (c + fmerges F =? c)%N eqn:Z.
  - apply N.eqb_eq in Z. assert (Z' : fmerges F = 0%N) by lia. rewrite no_merges_steps by exact Z'.
    rewrite (no_merges_tops D F _ _ ST Z'), map_length. split; [|lia]. do 2 f_equal. lia.
  - apply N.eqb_neq in Z. pose proof (forest_length D F) as FL.
    destruct (IH (map (step1 D) F) (c + fmerges F)%N) as [G1 G2].
    + apply ok_forest. exact V.
    + apply step_resting. exact ST.
    + lia.
    + rewrite map_length in *. rewrite G1, top_step. split; [|lia]. do 2 f_equal. lia.
Qed.

(** ** Passes backwards *)
Lemma pass_form D xs : D <= 31 -> forall o c ys o' c', okn xs ->
  pass1 Release D xs (wrap o) c = Ret (ys, o', c') ->
  nopair D ys /\ okn ys /\ (c <= c')%N /\ (xs <> [] -> ys <> []) /\
  (head_conc_at (S D) ys = true -> head_conc_at (S D) xs = true).
Proof.
  intros HD. remember (length xs) as n eqn:En. revert xs En.
  induction n as [n IH] using (well_founded_induction lt_wf). intros xs -> o c ys o' c' V E.
  destruct xs as [|[d h|p m] tl].
  - cbn in E. injection E as <- _ <-. repeat split; try constructor; auto; try lia.
  - inversion V as [|? ? Vd Vt]; subst. destruct (pass_split _ _ _ _ _ _ _ _ _ HD Vd E) as [[ys' [-> [E1 G]]]|[e [h2 [r' [ys' [-> [L [-> [A [-> E1]]]]]]]]]].
    + destruct (IH (length tl) ltac:(cbn; lia) tl eq_refl _ _ _ _ _ Vt E1) as [I1 [I2 [I3 [I4 I5]]]].
      split; [split; [|exact I1]|split; [constructor; assumption|split; [exact I3|split; [discriminate|intros Q; exact Q]]]].
      intros Q. cbn in Q. apply Nat.eqb_eq in Q. subst d. destruct (head_conc_at (S D) ys') eqn:X; [|reflexivity].
      specialize (G (I5 eq_refl)). lia.
    + inversion Vt as [|? ? _ Vr]; subst.
      destruct (IH (length r') ltac:(cbn; lia) r' eq_refl _ _ _ _ _ Vr E1) as [I1 [I2 [I3 [I4 I5]]]].
      split; [split; [|exact I1]|split; [constructor; [cbn in *; lia|assumption]|split; [lia|split; [discriminate|]]]].
      * intros Q. cbn in Q. apply Nat.eqb_eq in Q. lia.
      * intros Q. cbn in Q. apply Nat.eqb_eq in Q. lia.
  - inversion V as [|? ? _ Vt]; subst. cbn [pass1] in E. rewrite add_wrap in E. cbn [bind] in E.
    apply bind_inv in E as [[[ys' o1] c1] [E1 E2]]. injection E2 as <- <- <-.
    destruct (IH (length tl) ltac:(cbn; lia) tl eq_refl _ _ _ _ _ Vt E1) as [I1 [I2 [I3 [I4 I5]]]].
    split; [split; [|exact I1]|split; [constructor; [exact I|assumption]|split; [exact I3|split; [discriminate|]]]].
    + intros Q. discriminate.
    + intros Q. discriminate.
Qed.

Lemma unpass_tree D t : D <= 31 -> forall d xs rest o c o' c', pwf D d t -> pleaves t = [] -> okn xs ->
  pass1 Release D xs (wrap o) c = Ret (flatten d t ++ rest, o', c') ->
  exists t' xs' c2, xs = flatten d t' ++ xs' /\ pwf_loose D d t' /\ pleaves t' = [] /\
    pass1 Release D xs' (wrap (o + sp D d)) c2 = Ret (rest, o', c') /\
    (is_conc t' = true \/ is_conc t = false \/ (o mod sp D d = 0)%N).
Proof.
  intros HD. induction t as [h|p m|l IHl r IHr]; intros d xs rest o c o' c' Wf NL V E.
  - cbn in Wf. destruct xs as [|[d1 h1|p m] tl]; [cbn in E; discriminate| |].
    2: { cbn [pass1] in E. rewrite add_wrap in E. cbn [bind] in E. apply bind_inv in E as [[[ys' o1] c1] [_ E2]]. discriminate. }
    inversion V as [|? ? Vd Vt]; subst.
    destruct (pass_split _ _ _ _ _ _ _ _ _ HD Vd E) as [[ys' [Q [E1 G]]]|[e [h2 [r' [ys' [-> [L [-> [A [Q E1]]]]]]]]]].
    + cbn in Q. injection Q as Q1 Q2 Q3. subst d1 h1 ys'. exists (PConc h), tl, c. rewrite width_sp in E1 by exact Wf.
      split; [reflexivity|split; [cbn; lia|split; [reflexivity|split; [exact E1|left; reflexivity]]]].
    + cbn in Q. injection Q as Q1 Q2 Q3. subst e ys'. exists (PBr (PConc h1) (PConc h2)), r', (c + 1)%N.
      split; [reflexivity|split; [cbn; lia|split; [reflexivity|split; [exact E1|right; right; exact A]]]].
  - discriminate.
  - cbn [pwf flatten pleaves] in *. destruct Wf as [Wl Wr]. rewrite <- app_assoc in E. apply app_eq_nil in NL as [Nl Nr].
    pose proof (pwf_depth _ _ _ Wl) as L.
    destruct (IHl _ _ _ _ _ _ _ Wl Nl V E) as [l' [x1 [c1 [-> [Ll [Nl' [E1 _]]]]]]].
    apply Forall_app in V as [_ V].
    destruct (IHr _ _ _ _ _ _ _ Wr Nr V E1) as [r' [x2 [c2 [-> [Lr [Nr' [E2 _]]]]]]].
    exists (PBr l' r'), x2, c2. cbn [flatten pwf_loose is_conc pleaves]. rewrite app_assoc, Nl', Nr'.
    replace (o + sp D (S d) + sp D (S d))%N with (o + sp D d)%N in E2 by (rewrite (sp_S D d) by lia; lia).
    split; [reflexivity|]. split; [split; assumption|]. split; [reflexivity|]. split; [exact E2|]. right. left. reflexivity.
Qed.

Lemma edge_first d t rest : pleaves t = [] -> head_conc_at (edge d t) (flatten d t ++ rest) = true.
Proof.
  revert d rest; induction t as [h|p m|l IHl r IHr]; intros d rest V; cbn in *.
  - apply Nat.eqb_refl.
  - discriminate.
  - rewrite <- app_assoc in *. apply IHl. apply app_eq_nil in V as [V _]. exact V.
Qed.
Lemma nonleaf t : pleaves t = [] -> is_pleaf t = false.
Proof. destruct t; [reflexivity|discriminate|reflexivity]. Qed.

Lemma unpass_rest D F' : D <= 31 -> forall o prev xs c o' c', okn xs ->
  pass1 Release D xs (wrap o) c = Ret (frontiers F', o', c') -> nopair D (frontiers F') ->
  resting D o prev F' -> (prev = Some (S D) -> head_conc_at (S D) xs = false) ->
  exists F, xs = frontiers F /\ resting D o prev F.
Proof.
  intros HD. induction F' as [|[d u] r IH]; intros o prev xs c o' c' V E P ST Hp.
  - destruct (pass_form D xs HD _ _ _ _ _ V E) as [_ [_ [_ [N _]]]].
    destruct xs as [|n xs]; [|exfalso; apply N; [discriminate|reflexivity]].
    exists []. split; [reflexivity|exact I].
  - change (frontiers ((d, u) :: r)) with (flatten d u ++ frontiers r) in *.
    destruct (is_pleaf u) eqn:U.
    + destruct u as [h|p m|a b]; try discriminate. cbn [resting] in ST. destruct ST as [-> ST]. cbn [flatten app] in E, P.
      destruct xs as [|[d1 h1|p1 m1] tl]; [cbn in E; discriminate| |].
      * inversion V as [|? ? Vd Vt]; subst.
        destruct (pass_split _ _ _ _ _ _ _ _ _ HD Vd E) as [[ys' [Q _]]|[e [h2 [r' [ys' [_ [_ [_ [_ [Q _]]]]]]]]]]; discriminate.
      * inversion V as [|? ? _ Vt]; subst. cbn [pass1] in E. rewrite add_wrap in E. cbn [bind] in E.
        apply bind_inv in E as [[[ys' o1] c1] [E1 E2]]. injection E2 as Q1 Q2 Q3 Q4 Q5. subst.
        destruct (IH _ None _ _ _ _ Vt E1 (proj2 P) ST ltac:(discriminate)) as [F [-> SF]].
        exists ((D, PLeaf p m) :: F). split; [reflexivity|]. cbn [resting]. auto.
    + rewrite resting_tree in ST by exact U. destruct ST as [NL [R [S1 [S2 S3]]]].
      destruct (le_lt_dec d D) as [L|L].
      * assert (Wu : pwf D d u).
        { destruct u as [h|p m|a b]; [exact L|discriminate|]. destruct R as [Wf _]. eapply nopair_pwf; eassumption. }
        destruct (unpass_tree D u HD _ _ _ _ _ _ _ Wu NL V E) as [t' [xs' [c2 [-> [Wf [NL' [E2 A]]]]]]].
        rewrite width_sp in S3 by exact L.
        pose proof V as V'. apply Forall_app in V' as [_ Vx].
        destruct (IH _ (Some d) _ _ _ _ Vx E2 (nopair_app _ _ _ P) S3) as [F [-> SF]].
        { intros Q. injection Q as ->. lia. }
        exists ((d, t') :: F). split; [reflexivity|]. rewrite resting_tree by (apply nonleaf; exact NL').
        rewrite (width_sp D d L) in *. split; [exact NL'|].
        split; [|split; [exact S1|split; [|exact SF]]].
        -- destruct t' as [h|p m|a b]; [exact I|exact Wf|]. cbn [rooted]. split; [exact Wf|]. rewrite width_sp by exact L.
           destruct A as [A|[A|A]]; [discriminate| |exact A].
           destruct u as [h|p m|a' b']; [discriminate|discriminate|].
           cbn [rooted] in R. rewrite width_sp in R by exact L. tauto.
        -- intros Q1 Q2. specialize (Hp Q1). rewrite <- Q2, edge_first in Hp by exact NL'. discriminate.
      * destruct u as [h|p m|a b].
        -- destruct xs as [|[d1 h1|p m] tl]; [cbn in E; discriminate| |].
           2: { cbn [pass1] in E. rewrite add_wrap in E. cbn [bind] in E. apply bind_inv in E as [[[ys' o1] c1] [_ E2]]. discriminate. }
           inversion V as [|? ? Vd Vt]; subst.
           destruct (pass_split _ _ _ _ _ _ _ _ _ HD Vd E) as [[ys' [Q [E1 G]]]|[e [h2 [r' [ys' [_ [Le [_ [_ [Q _]]]]]]]]]].
           2: { cbn in Q. injection Q as Q1 _ _. lia. }
           cbn in Q. injection Q as Q1 Q2 Q3. subst d1 h1 ys'.
           destruct (IH _ (Some d) _ _ _ _ Vt E1 (nopair_app _ [ConcealedNode d h] _ P) S3) as [F [-> SF]].
           { intros Q. injection Q as ->. destruct (head_conc_at (S D) tl) eqn:X; [|reflexivity]. specialize (G eq_refl). lia. }
           exists ((d, PConc h) :: F). split; [reflexivity|].
           rewrite resting_tree by reflexivity. split; [reflexivity|]. split; [exact I|split; [exact S1|split; [exact S2|exact SF]]].
        -- discriminate.
        -- destruct R as [[Wf _] _]. apply loose_depth in Wf. lia.
Qed.

Definition lone (D : nat) (n : tree_node) : nat * ptree :=
  match n with ConcealedNode d h => (d, PConc h) | CommitmentLeaf p m => (D, PLeaf p m) end.
Lemma lone_frontiers D xs : frontiers (map (lone D) xs) = xs.
Proof.
  induction xs as [|[d h|p m] xs IH]; [reflexivity| |]; cbn [map lone]; unfold frontiers in *; cbn [flat_map fst snd flatten app];
    rewrite IH; reflexivity.
Qed.

Lemma rest_resting D xs : D <= 31 -> forall o prev c ys o', okn xs ->
  pass1 Release D xs (wrap o) c = Ret (ys, o', c) ->
  (forall d, prev = Some d -> head_conc_at d xs = true -> 1 <= d <= D /\ ((o - width_at D d) mod sp D (d - 1) <> 0)%N) ->
  ys = xs /\ resting D o prev (map (lone D) xs).
Proof.
  intros HD. induction xs as [|[d h|p m] tl IH]; intros o prev c ys o' V E Hp.
  - cbn in E. injection E as <- _. split; [reflexivity|exact I].
  - inversion V as [|? ? Vd Vt]; subst.
    destruct (pass_split _ _ _ _ _ _ _ _ _ HD Vd E) as [[ys' [-> [E1 G]]]|[e [h2 [r' [ys' [-> [L [-> [A [-> E1]]]]]]]]]].
    + destruct (IH _ (Some d) _ _ _ Vt E1) as [-> SI].
      { intros d' Q X. injection Q as <-. replace (o + width_at D d - width_at D d)%N with o by lia. exact (G X). }
      split; [reflexivity|]. cbn [map lone]. rewrite resting_tree by reflexivity. cbn [pleaves rooted edge].
      assert (K : prev = Some d -> 1 <= d <= D /\ ((o - width_at D d) mod (2 * width_at D d) <> 0)%N).
      { intros ->. destruct (Hp d eq_refl ltac:(cbn; apply Nat.eqb_refl)) as [K1 K2]. rewrite width_twice by exact K1. auto. }
      split; [reflexivity|split; [exact I|split; [exact K|split; [|exact SI]]]]. intros Q1 Q2. subst. specialize (K eq_refl). lia.
    + inversion Vt as [|? ? _ Vr]; subst. destruct (pass_form D r' HD _ _ _ _ _ Vr E1) as [_ [_ [K _]]]. lia.
  - inversion V as [|? ? _ Vt]; subst. cbn [pass1] in E. rewrite add_wrap in E. cbn [bind] in E.
    apply bind_inv in E as [[[ys' o1] c1] [E1 E2]]. injection E2 as <- <- ->.
    destruct (IH _ None _ _ _ Vt E1 ltac:(discriminate)) as [-> SI].
    split; [reflexivity|]. cbn [map lone resting]. auto.
Qed.

Lemma unloop_rest D : D <= 31 -> forall fuel xs c ys n, okn xs ->
  conceal_loop fuel Release D xs c = Ret (ys, n) ->
  exists F, xs = frontiers F /\ resting D 0 None F.
Proof.
  intros HD. induction fuel as [|fuel IH]; intros xs c ys n V E; [discriminate|].
  cbn [conceal_loop debug_assert bind] in E. apply bind_inv in E as [[[xs' o] c1] [E1 E]].
  rewrite pass_pass1 in E1. change 0%N with (wrap 0) in E1.
  destruct (pass_form D xs HD _ _ _ _ _ V E1) as [P [V' _]].
  destruct (c1 =? c)%N eqn:Z.
  - apply N.eqb_eq in Z. subst c1.
    destruct (rest_resting D xs HD 0%N None c xs' o V E1 ltac:(discriminate)) as [Q K].
    exists (map (lone D) xs). split; [symmetry; apply lone_frontiers|exact K].
  - destruct (IH _ _ _ _ V' E) as [F' [-> K]].
    exact (unpass_rest D _ HD _ _ _ _ _ _ V E1 P K ltac:(discriminate)).
Qed.

(** ** Debug assertions and overflow checks *)
Definition inner_at (D : nat) (n : tree_node) : Prop := match n with ConcealedNode d _ => d <= D | CommitmentLeaf _ _ => True end.
Fixpoint spans (D : nat) (xs : list tree_node) : N :=
  match xs with
  | [] => 0
  | ConcealedNode d _ :: r => width_at D d + spans D r
  | CommitmentLeaf _ _ :: r => 1 + spans D r
  end%N.
Lemma spans_app D xs ys : spans D (xs ++ ys) = (spans D xs + spans D ys)%N.
Proof. induction xs as [|[d h|p m] xs IH]; cbn [spans app]; [reflexivity|rewrite IH; lia|rewrite IH; lia]. Qed.
Lemma add_small o s : (o + s < 2 ^ 32)%N -> u32_add Debug o s = Ret (o + s)%N.
Proof. intros L. unfold u32_add. change u32_lim with (2 ^ 32)%N. apply N.ltb_lt in L. rewrite L. reflexivity. Qed.
Lemma add_inv o s r : u32_add Debug o s = Ret r -> (r = o + s /\ o + s < 2 ^ 32)%N.
Proof.
  unfold u32_add. change u32_lim with (2 ^ 32)%N. destruct (_ <? _)%N eqn:E; [|discriminate]. apply N.ltb_lt in E. intros Q. injection Q as <-. auto.
Qed.

Lemma debug_keep D d h rest o c :
  D <= 31 -> d <= D -> (o + sp D d < 2 ^ 32)%N -> (head_conc_at d rest = true -> 1 <= d <= D /\ (o mod sp D (d - 1) <> 0)%N) ->
  pass1 Debug D (ConcealedNode d h :: rest) o c =
  bind (pass1 Debug D rest (o + sp D d)%N c) (put (ConcealedNode d h)).
Proof.
  intros HD Hd Ho Hc.
  assert (Hs : forall X : outcome (list tree_node * N * N), X = bind (node_span Debug D d) (fun s => bind (u32_add Debug o s) (fun o' =>
            bind (pass1 Debug D rest o' c) (put (ConcealedNode d h)))) ->
          X = bind (pass1 Debug D rest (o + sp D d)%N c) (put (ConcealedNode d h))).
  { intros X ->. rewrite node_span_ok by assumption. cbn [bind]. rewrite add_small by exact Ho. reflexivity. }
  apply Hs. cbn [pass1]. destruct rest as [|[d2 h2|p2 m2] rest2]; try reflexivity.
  destruct (d =? d2) eqn:E; [|reflexivity]. cbn in Hc. apply Nat.eqb_eq in E; subst d2.
  rewrite Nat.eqb_refl in Hc. destruct (Hc eq_refl) as [L N].
  unfold u5_sub. replace (1 <=? d) with true by (symmetry; apply Nat.leb_le; lia). cbn [bind].
  rewrite node_span_ok by lia. cbn [bind]. unfold u32_rem. pose proof (sp_pos D (d - 1)).
  replace (sp D (d - 1) =? 0)%N with false by (symmetry; apply N.eqb_neq; lia).
  cbn [bind]. replace ((o mod sp D (d - 1) =? 0)%N) with false by (symmetry; apply N.eqb_neq; exact N). reflexivity.
Qed.
Lemma debug_join D d a b rest o c :
  D <= 31 -> d <= D -> (o + sp D d < 2 ^ 32)%N -> (o mod sp D d = 0)%N ->
  pass1 Debug D (ConcealedNode (S d) a :: ConcealedNode (S d) b :: rest) o c =
  bind (pass1 Debug D rest (o + sp D d)%N (c + 1)%N)
    (put (ConcealedNode d (HASH (s_branch d (width_of D) a b)))).
Proof.
  intros HD Hd Ho Hm. cbn [pass1]. rewrite Nat.eqb_refl. unfold u5_sub.
  replace (1 <=? S d) with true by reflexivity. cbn [bind]. replace (S d - 1) with d by lia.
  rewrite node_span_ok by lia. cbn [bind]. unfold u32_rem. pose proof (sp_pos D d).
  replace (sp D d =? 0)%N with false by (symmetry; apply N.eqb_neq; lia).
  cbn [bind]. rewrite Hm. cbn [N.eqb negb]. rewrite add_small by exact Ho. reflexivity.
Qed.

Lemma wrap_small o : (o < 2 ^ 32)%N -> wrap o = o.
Proof. apply N.mod_small. Qed.

Lemma debug_pass D xs : D <= 31 -> forall o c ys o' c', okn xs ->
  pass1 Release D xs (wrap o) c = Ret (ys, o', c') -> Forall (inner_at D) ys -> (o + spans D ys < 2 ^ 32)%N ->
  pass1 Debug D xs o c = Ret (ys, o', c').
Proof.
  intros HD. remember (length xs) as n eqn:En. revert xs En.
  induction n as [n IH] using (well_founded_induction lt_wf). intros xs -> o c ys o' c' V E K T.
  destruct xs as [|[d h|p m] tl].
  - cbn in E. injection E as <- <- <-. cbn in T. rewrite wrap_small by lia. reflexivity.
  - inversion V as [|? ? Vd Vt]; subst. destruct (pass_split _ _ _ _ _ _ _ _ _ HD Vd E) as [[ys' [-> [E1 G]]]|[e [h2 [r' [ys' [-> [L [-> [A [-> E1]]]]]]]]]].
    + inversion K as [|? ? Kd Kt]; subst. cbn [inner_at] in Kd. cbn [spans] in T. rewrite width_sp in * by exact Kd.
      rewrite debug_keep; [|exact HD|exact Kd|lia|exact G].
      rewrite (IH (length tl) ltac:(cbn; lia) tl eq_refl _ _ _ _ _ Vt E1 Kt ltac:(lia)). reflexivity.
    + inversion Vt as [|? ? _ Vr]; subst. inversion K as [|? ? Kd Kt]; subst. cbn [spans] in T. rewrite width_sp in * by exact L.
      rewrite debug_join; [|exact HD|exact L|lia|exact A].
      rewrite (IH (length r') ltac:(cbn; lia) r' eq_refl _ _ _ _ _ Vr E1 Kt ltac:(lia)). reflexivity.
  - inversion V as [|? ? _ Vt]; subst. cbn [pass1] in *. rewrite add_wrap in E. cbn [bind] in E.
    apply bind_inv in E as [[[ys' o1] c1] [E1 E2]]. injection E2 as <- <- <-. inversion K as [|? ? _ Kt]; subst. cbn [spans] in T.
    rewrite add_small by lia. cbn [bind].
    rewrite (IH (length tl) ltac:(cbn; lia) tl eq_refl _ _ _ _ _ Vt E1 Kt ltac:(lia)). reflexivity.
Qed.

Lemma debug_kept D xs : D <= 31 -> forall o c ys o' c', (o < 2 ^ 32)%N ->
  pass1 Debug D xs o c = Ret (ys, o', c') -> Forall (inner_at D) ys /\ (o + spans D ys < 2 ^ 32)%N.
Proof.
  intros HD. remember (length xs) as n eqn:En. revert xs En.
  induction n as [n IH] using (well_founded_induction lt_wf). intros xs -> o c ys o' c' O E.
  assert (KP : forall d h tl, length tl < length xs ->
    bind (node_span Debug D d) (fun s => bind (u32_add Debug o s) (fun o' => bind (pass1 Debug D tl o' c) (put (ConcealedNode d h)))) = Ret (ys, o', c') ->
    Forall (inner_at D) ys /\ (o + spans D ys < 2 ^ 32)%N).
  { intros d h tl L X. apply bind_inv in X as [s [X1 X]]. pose proof (node_span_debug _ _ _ X1) as Ld.
    rewrite node_span_ok in X1 by assumption. injection X1 as <-. apply bind_inv in X as [o1 [X2 X]].
    apply add_inv in X2 as [-> X2]. apply bind_inv in X as [[[ys' o2] c2] [X3 X]]. injection X as <- <- <-.
    destruct (IH (length tl) L tl eq_refl _ _ _ _ _ X2 X3) as [I1 I2]. split; [constructor; assumption|].
    cbn [spans]. rewrite width_sp by exact Ld. lia. }
  destruct xs as [|[d h|p m] tl].
  - cbn in E. injection E as <- <- <-. split; [constructor|]. cbn. lia.
  - cbn [pass1] in E. destruct tl as [|[d2 h2|p2 m2] tl2].
    + eapply (KP d h []); [cbn; lia|exact E].
    + destruct (d =? d2) eqn:Q.
      * apply bind_inv in E as [e [E1 E]]. apply bind_inv in E as [s [E2 E]]. pose proof (node_span_debug _ _ _ E2) as Le.
        rewrite node_span_ok in E2 by assumption. injection E2 as <-. apply bind_inv in E as [x [E3 E]].
        destruct (negb (x =? 0)%N).
        -- eapply (KP d h (ConcealedNode d2 h2 :: tl2)); [cbn; lia|exact E].
        -- apply bind_inv in E as [o1 [X2 X]].
           apply add_inv in X2 as [-> X2]. apply bind_inv in X as [[[ys' o2] c2] [X3 X]]. injection X as <- <- <-.
           destruct (IH (length tl2) ltac:(cbn; lia) tl2 eq_refl _ _ _ _ _ X2 X3) as [I1 I2]. split; [constructor; assumption|].
           unfold tn_with. cbn [spans]. rewrite width_sp by exact Le. lia.
      * eapply (KP d h (ConcealedNode d2 h2 :: tl2)); [cbn; lia|exact E].
    + eapply (KP d h (CommitmentLeaf p2 m2 :: tl2)); [cbn; lia|exact E].
  - cbn [pass1] in E. apply bind_inv in E as [o1 [X2 X]].
    apply add_inv in X2 as [-> X2]. apply bind_inv in X as [[[ys' o2] c2] [X3 X]]. injection X as <- <- <-.
    destruct (IH (length tl) ltac:(cbn; lia) tl eq_refl _ _ _ _ _ X2 X3) as [I1 I2]. split; [constructor; [exact I|assumption]|].
    cbn [spans]. lia.
Qed.

Lemma spans_tree D t : forall d, pwf D d t -> spans D (flatten d t) = sp D d /\ Forall (inner_at D) (flatten d t).
Proof.
  induction t as [h|p m|l IHl r IHr]; intros d Wf.
  - cbn in *. rewrite width_sp by exact Wf. split; [lia|constructor; [exact Wf|constructor]].
  - cbn in *. subst d. split; [unfold sp; rewrite Nat.sub_diag; reflexivity|constructor; [exact I|constructor]].
  - cbn [pwf flatten] in *. destruct Wf as [Wl Wr]. destruct (IHl _ Wl) as [A1 A2], (IHr _ Wr) as [B1 B2].
    pose proof (pwf_depth _ _ _ Wl). rewrite spans_app, A1, B1, (sp_S D d) by lia. split; [lia|]. apply Forall_app. split; assumption.
Qed.
Lemma spans_rest D F : forall o prev, resting D o prev F -> nopair D (frontiers F) -> Forall (fun x => fst x <= D) F ->
  spans D (frontiers F) = breadth D F /\ Forall (inner_at D) (frontiers F).
Proof.
  induction F as [|[d t] F IH]; intros o prev ST P K; [split; [reflexivity|constructor]|].
  inversion K as [|? ? Kd Kt]; subst. cbn [fst] in Kd.
  change (frontiers ((d, t) :: F)) with (flatten d t ++ frontiers F) in *.
  change (breadth D ((d, t) :: F)) with (width_at D d + breadth D F)%N.
  assert (Wf : pwf D d t /\ exists o' prev', resting D o' prev' F).
  { destruct (is_pleaf t) eqn:U.
    - destruct t as [h|p m|a b]; try discriminate. cbn [resting] in ST. destruct ST as [-> ST]. split; [reflexivity|eauto].
    - rewrite resting_tree in ST by exact U. destruct ST as [_ [R [_ [_ ST]]]]. split; [|eauto].
      destruct t as [h|p m|a b]; [exact Kd|discriminate|]. destruct R as [W _]. eapply nopair_pwf; eassumption. }
  destruct Wf as [Wf [o' [prev' ST']]]. destruct (spans_tree D t d Wf) as [A1 A2].
  destruct (IH _ _ ST' (nopair_app _ _ _ P) Kt) as [B1 B2].
  rewrite spans_app, A1, B1, width_sp by exact Kd. split; [reflexivity|]. apply Forall_app. split; assumption.
Qed.

Lemma steps_shallow D F : Forall (fun x => fst x <= D) (map (step1 D) F) <-> Forall (fun x : nat * ptree => fst x <= D) F.
Proof. rewrite Forall_map. unfold step1. cbn [fst]. reflexivity. Qed.
Lemma merged F : fmerges F = 0%N \/ (0 < fmerges F)%N.
Proof. lia. Qed.

Lemma debug_loop D : D <= 31 -> forall fuel F c,
  okn (frontiers F) -> resting D 0 None F -> frontiers F <> [] -> length (frontiers F) < fuel ->
  Forall (fun x => fst x <= D) F -> (breadth D F < 2 ^ 32)%N -> (fmerges F = 0 \/ breadth D F = width_of D)%N ->
  exists r, conceal_loop fuel Debug D (frontiers F) c = Ret r.
Proof.
  intros HD. induction fuel as [|fuel IH]; intros F c V ST NE L K T M; [lia|].
  cbn [conceal_loop].
  replace (debug_assert Debug (negb (match frontiers F with [] => true | _ => false end))) with (@Ret unit tt)
    by (destruct (frontiers F); [contradiction NE; reflexivity|reflexivity]). cbn [bind].
  pose proof (pass_rest D F HD 0%N _ c V ST) as E. rewrite N.add_0_l, (wrap_small (breadth D F)) in E by exact T.
  destruct (pass_form D _ HD _ _ _ _ _ V E) as [P [V' [_ [NE' _]]]].
  destruct (spans_rest D (map (step1 D) F) 0%N None) as [B1 B2]; [apply step_resting; exact ST|exact P|apply steps_shallow; exact K|].
  rewrite breadth_step in B1.
  rewrite pass_pass1, (debug_pass D _ HD 0%N c _ _ _ V E B2) by (rewrite B1; lia). cbn [bind].
  destruct (c + fmerges F =? c)%N eqn:Z; [eexists; reflexivity|]. apply N.eqb_neq in Z.
  destruct M as [M|M]; [lia|]. pose proof (forest_length D F) as FL.
  replace (debug_assert Debug _) with (@Ret unit tt) by (unfold debug_assert; rewrite M, N.eqb_refl; reflexivity). cbn [bind].
  apply IH; [exact V'|apply step_resting; exact ST|apply NE'; exact NE|lia|apply steps_shallow; exact K|rewrite breadth_step; exact T|].
  right. rewrite breadth_step. exact M.
Qed.

Lemma tops_inner D F : Forall (inner_at D) (map (top (width_of D)) F) -> forall o prev, resting D o prev F ->
  Forall (fun x => fst x <= D) F /\ spans D (map (top (width_of D)) F) = breadth D F.
Proof.
  induction F as [|[d t] F IH]; intros K o prev ST; [split; [constructor|reflexivity]|].
  cbn [map] in *. inversion K as [|? ? Kd Kt]; subst. change (breadth D ((d, t) :: F)) with (width_at D d + breadth D F)%N.
  destruct (is_pleaf t) eqn:U.
  - destruct t as [h|p m|a b]; try discriminate. cbn [resting] in ST. destruct ST as [-> ST]. destruct (IH Kt _ _ ST) as [I1 I2].
    split; [constructor; [cbn; lia|exact I1]|]. cbn [top snd spans]. rewrite I2, width_leaf. reflexivity.
  - rewrite resting_tree in ST by exact U. destruct ST as [_ [_ [_ [_ ST]]]]. destruct (IH Kt _ _ ST) as [I1 I2].
    assert (T : exists h, top (width_of D) (d, t) = ConcealedNode d h) by (destruct t; [eexists; reflexivity|discriminate|eexists; reflexivity]).
    destruct T as [h T]. rewrite T in *. split; [constructor; assumption|]. cbn [spans]. rewrite I2. reflexivity.
Qed.

Lemma undebug_loop D : D <= 31 -> forall fuel F c r,
  okn (frontiers F) -> resting D 0 None F -> conceal_loop fuel Debug D (frontiers F) c = Ret r ->
  Forall (fun x => fst x <= D) F /\ (breadth D F < 2 ^ 32)%N /\ (fmerges F = 0 \/ breadth D F = width_of D)%N.
Proof.
  intros HD. induction fuel as [|fuel IH]; intros F c r V ST E; [discriminate|].
  cbn [conceal_loop] in E. apply bind_inv in E as [u [_ E]]. apply bind_inv in E as [[[ys o] c1] [E1 E]].
  rewrite pass_pass1 in E1.
  pose proof (pass_rest D F HD 0%N _ c V ST) as R. change (wrap 0) with 0%N in R. rewrite N.add_0_l in R.
  assert (B : pass1 Release D (frontiers F) 0 c = Ret (ys, o, c1)).
  { rewrite <- pass_pass1. apply below_pass. rewrite pass_pass1. exact E1. }
  rewrite R in B. injection B as <- <- <-.
  destruct (debug_kept D _ HD 0%N _ _ _ _ ltac:(reflexivity) E1) as [K T]. rewrite N.add_0_l in T.
  destruct (c + fmerges F =? c)%N eqn:Z.
  - apply N.eqb_eq in Z. assert (Z' : fmerges F = 0%N) by lia. rewrite no_merges_steps in K, T by exact Z'.
    rewrite (no_merges_tops D F _ _ ST Z') in K, T. destruct (tops_inner D F K _ _ ST) as [A1 A2]. rewrite A2 in T. split; [exact A1|split; [exact T|left; exact Z']].
  - apply bind_inv in E as [u' [A E]]. unfold debug_assert in A. destruct (wrap (breadth D F) =? width_of D)%N eqn:W; [|discriminate].
    apply N.eqb_eq in W.
    destruct (IH (map (step1 D) F) _ _ (ok_forest D F V) (step_resting D F _ _ ST) E) as [I1 [I2 _]].
    rewrite breadth_step in I2. apply (proj1 (steps_shallow D F)) in I1. rewrite wrap_small in W by exact I2. split; [exact I1|split; [exact I2|right; exact W]].
Qed.

(** ** Concealing the leaves *)
Lemma hide_keep D ids xs : map (hide D ids) xs = map (keep_node D ids) xs.
Proof. apply map_ext. intros [d h|p m]; reflexivity. Qed.
Lemma hidden_dropped ids xs : dropped ids xs = N.of_nat (hidden_leaves ids xs).
Proof.
  unfold dropped, hidden_leaves. f_equal. induction xs as [|[d h|p m] xs IH]; [reflexivity|exact IH|]. cbn [known_leaves filter fst].
  unfold mem at 1. destruct (existsb (b32_eqb p) ids); cbn [negb]; [exact IH|]. cbn [length]. rewrite IH. reflexivity.
Qed.
Lemma hide_ok D ids xs : D <= 31 -> okn xs -> okn (map (hide D ids) xs).
Proof.
  intros HD V. apply Forall_map. eapply Forall_impl; [|exact V]. intros [d h|p m] L; cbn; [exact L|]. destruct (existsb _ _); [exact I|exact HD].
Qed.
Lemma merges_none D F : forall o prev, resting D o prev F -> (fmerges F = 0%N <-> length F = length (frontiers F)).
Proof.
  intros o prev ST. split; [intros Z; rewrite (no_merges_tops D F _ _ ST Z), map_length; reflexivity|].
  intros E. pose proof (forest_length D F) as FL.
  assert (G : forall F, length F <= length (frontiers F)).
  { clear. induction F as [|[d t] F IH]; [cbn; lia|]. change (frontiers ((d, t) :: F)) with (flatten d t ++ frontiers F).
    rewrite app_length. cbn [length]. assert (1 <= length (flatten d t)); [|lia].
    clear. revert d; induction t as [h|p m|l IHl r IHr]; intros d; cbn; [lia|lia|]. rewrite app_length. specialize (IHl (S d)). lia. }
  pose proof (G (map (step1 D) F)) as GF. rewrite map_length in GF. lia.
Qed.

Lemma release_outcome : forall b ids b' n (valid : valid_block b)
  (known : forall p, In p ids -> In p (map fst (known_leaves (mb_cross_section b)))),
  conceal_except Release b ids = Ret (b', Ok n) <->
  exists F, map (hide (mb_depth b) ids) (mb_cross_section b) = frontiers F /\ resting (mb_depth b) 0 None F /\
    b' = MBlock (mb_method b) (mb_depth b) (mb_cofactor b) (map (top (2 ^ N.of_nat (mb_depth b))) F) None /\
    n = (N.of_nat (hidden_leaves ids (mb_cross_section b)) + (N.of_nat (length (mb_cross_section b)) - N.of_nat (length F)))%N.
Proof.
  intros b ids b' n [HD [_ [_ [V _]]]] KN. set (D := mb_depth b) in *. change (2 ^ N.of_nat D)%N with (width_of D).
  apply missing_nil in KN. rewrite conceal_except_unfold, KN. fold D. rewrite <- hide_keep.
  pose proof (hide_ok D ids _ HD V) as VH. rewrite hidden_dropped.
  assert (LH : length (map (hide D ids) (mb_cross_section b)) = length (mb_cross_section b)) by apply map_length.
  split.
  - intros E. apply bind_inv in E as [[ys k] [E1 E2]].
    destruct (unloop_rest D HD _ _ _ _ _ VH E1) as [F [Q SF]]. rewrite Q in VH, LH, E1.
    destruct (loop_rest D HD _ F (N.of_nat (hidden_leaves ids (mb_cross_section b))) VH SF ltac:(rewrite LH; apply Nat.lt_succ_diag_r)) as [G _].
    rewrite G in E1. injection E1 as <- <-. injection E2 as <- <-. exists F. rewrite LH.
    split; [exact Q|]. split; [exact SF|]. split; reflexivity.
  - intros [F [Q [SF [-> ->]]]]. rewrite Q in VH, LH |- *.
    destruct (loop_rest D HD (S (length (mb_cross_section b))) F (N.of_nat (hidden_leaves ids (mb_cross_section b))) VH SF ltac:(rewrite LH; apply Nat.lt_succ_diag_r)) as [G _].
    rewrite G, LH. reflexivity.
Qed.

Lemma debug_outcome : forall b ids b' n (valid : valid_block b)
  (known : forall p, In p ids -> In p (map fst (known_leaves (mb_cross_section b)))),
  conceal_except Debug b ids = Ret (b', Ok n) <->
  exists F, map (hide (mb_depth b) ids) (mb_cross_section b) = frontiers F /\ resting (mb_depth b) 0 None F /\
    Forall (fun x => fst x <= mb_depth b) F /\ (breadth (mb_depth b) F < 2 ^ 32)%N /\
    (length F = length (mb_cross_section b) \/ breadth (mb_depth b) F = 2 ^ N.of_nat (mb_depth b))%N /\
    b' = MBlock (mb_method b) (mb_depth b) (mb_cofactor b) (map (top (2 ^ N.of_nat (mb_depth b))) F) None /\
    n = (N.of_nat (hidden_leaves ids (mb_cross_section b)) + (N.of_nat (length (mb_cross_section b)) - N.of_nat (length F)))%N.
Proof.
  intros b ids b' n Vb KN. pose proof Vb as [HD [_ [LN [V _]]]].
  pose proof (release_outcome b ids b' n Vb KN) as RO.
  set (D := mb_depth b) in *. change (2 ^ N.of_nat D)%N with (width_of D) in *.
  pose proof (hide_ok D ids _ HD V) as VH.
  assert (LH : length (map (hide D ids) (mb_cross_section b)) = length (mb_cross_section b)) by apply map_length.
  pose proof (proj2 (missing_nil _ _) KN) as MN.
  split.
  - intros E. pose proof (below_except b ids _ E) as R. apply RO in R as [F [Q [SF [Eb En]]]]. exists F.
    rewrite conceal_except_unfold, MN in E. fold D in E. rewrite <- hide_keep, Q in E. rewrite Q in VH, LH.
    apply bind_inv in E as [r [E _]]. destruct (undebug_loop D HD _ _ _ _ VH SF E) as [K [T M]].
    rewrite (merges_none D F _ _ SF) in M.
    split; [exact Q|]. split; [exact SF|]. split; [exact K|]. split; [exact T|]. split; [rewrite LH in M; exact M|]. split; assumption.
  - intros [F [Q [SF [K [T [M [Eb En]]]]]]].
    assert (R : conceal_except Release b ids = Ret (b', Ok n)) by (apply RO; exists F; auto).
    assert (X : exists r, conceal_except Debug b ids = Ret r).
    { rewrite conceal_except_unfold, MN. fold D. rewrite <- hide_keep, Q. rewrite Q in VH, LH.
      destruct (debug_loop D HD (S (length (mb_cross_section b))) F (dropped ids (mb_cross_section b)) VH SF) as [[ys k] G].
      - intros X. rewrite X in LH. cbn [length] in LH. rewrite <- LH in LN. cbn in LN. lia.
      - rewrite LH. apply Nat.lt_succ_diag_r.
      - exact K.
      - exact T.
      - rewrite (merges_none D F _ _ SF), LH. exact M.
      - rewrite G. eexists. reflexivity. }
    destruct X as [r X]. rewrite X. apply below_except in X. rewrite R in X. injection X as <-. reflexivity.
Qed.

(** ** Once is enough, and the division is unique *)
Lemma resting_rooted D o prev d t r : resting D o prev ((d, t) :: r) ->
  rooted D o d t /\ exists o' prev', resting D o' prev' r.
Proof.
  destruct (is_pleaf t) eqn:U; intros ST.
  - destruct t as [h|p m|a b]; try discriminate. cbn [resting] in ST. destruct ST as [-> ST]. split; [reflexivity|eauto].
  - rewrite resting_tree in ST by exact U. destruct ST as [_ [R [_ [_ ST]]]]. eauto.
Qed.
Lemma tops_depths D : forall F F' o prev o' prev', resting D o prev F -> resting D o' prev' F' ->
  map (top (width_of D)) F = map (top (width_of D)) F' -> map fst F = map fst F'.
Proof.
  induction F as [|[d t] F IH]; intros F' o prev o' prev' S1 S2 M; destruct F' as [|[d' t'] F']; try discriminate; [reflexivity|].
  cbn [map] in M. injection M as M1 M2. apply resting_rooted in S1 as [R1 [o1 [p1 S1]]]. apply resting_rooted in S2 as [R2 [o2 [p2 S2]]].
  cbn [map fst]. rewrite (IH _ _ _ _ _ S1 S2 M2). f_equal.
  destruct t as [h|p m|a b], t' as [h'|p' m'|a' b']; unfold top in M1; cbn [fst snd] in M1; try discriminate; try (injection M1; auto; fail).
  cbn [rooted] in R1, R2. congruence.
Qed.
Lemma rests_eq D : forall F F' o prev o' prev', resting D o prev F -> resting D o' prev' F' ->
  map fst F = map fst F' -> frontiers F = frontiers F' -> F = F'.
Proof.
  assert (G : forall o d t, rooted D o d t -> leaves_deep D d t).
  { intros o d [h|p m|l r]; cbn [rooted]; [intros _; exact I|auto|]. intros [A _]. apply pwf_loose_deep. exact A. }
  induction F as [|[d t] F IH]; intros F' o prev o' prev' S1 S2 M E; destruct F' as [|[d' t'] F']; try discriminate; [reflexivity|].
  injection M as <- M. apply resting_rooted in S1 as [R1 [o1 [p1 S1]]]. apply resting_rooted in S2 as [R2 [o2 [p2 S2]]].
  change (flatten d t ++ frontiers F = flatten d t' ++ frontiers F') in E.
  apply (flatten_prefix_unique D) in E as [-> E]; [|eapply G; eassumption|eapply G; eassumption].
  f_equal. eapply IH; eassumption.
Qed.
Lemma rest_unique : forall b ids F F' (valid : valid_block b)
  (one : map (hide (mb_depth b) ids) (mb_cross_section b) = frontiers F) (first : resting (mb_depth b) 0 None F)
  (other : map (hide (mb_depth b) ids) (mb_cross_section b) = frontiers F') (second : resting (mb_depth b) 0 None F'), F = F'.
Proof.
  intros b ids F F' [HD [_ [_ [V _]]]] E1 R1 E2 R2. set (D := mb_depth b) in *.
  pose proof (hide_ok D ids _ HD V) as VH.
  destruct (loop_rest D HD (S (length (frontiers F))) F 0%N) as [L1 _]; [rewrite <- E1; exact VH|exact R1|lia|].
  destruct (loop_rest D HD (S (length (frontiers F))) F' 0%N) as [L2 _]; [rewrite <- E2; exact VH|exact R2|rewrite <- E1, <- E2; lia|].
  rewrite <- E1, E2 in L1. rewrite <- E1, E2, L1 in L2. injection L2 as M _.
  eapply rests_eq; [exact R1|exact R2| |congruence]. eapply tops_depths; eassumption.
Qed.

Lemma resting_tops D F : forall o prev, resting D o prev F -> resting D o prev (map (lone D) (map (top (width_of D)) F)).
Proof.
  induction F as [|[d t] F IH]; intros o prev ST; [exact I|]. cbn [map].
  destruct (is_pleaf t) eqn:U.
  - destruct t as [h|p m|a b]; try discriminate. cbn [resting] in ST. destruct ST as [-> ST]. cbn [top snd lone resting]. auto.
  - rewrite resting_tree in ST by exact U. destruct ST as [_ [_ [S1 [_ ST]]]].
    assert (T : exists h, top (width_of D) (d, t) = ConcealedNode d h) by (destruct t; [eexists; reflexivity|discriminate|eexists; reflexivity]).
    destruct T as [h ->]. cbn [lone]. rewrite resting_tree by reflexivity. cbn [pleaves rooted edge].
    split; [reflexivity|]. split; [exact I|]. split; [exact S1|]. split; [|apply IH; exact ST].
    intros -> ->. destruct (S1 eq_refl). lia.
Qed.
Lemma tops_leaves D F : forall o prev, resting D o prev F -> known_leaves (map (top (width_of D)) F) = known_leaves (frontiers F).
Proof.
  assert (KF : forall t d rest, known_leaves (flatten d t ++ rest) = pleaves t ++ known_leaves rest).
  { induction t as [h|p m|l IHl r IHr]; intros d rest; cbn [flatten app known_leaves pleaves]; [reflexivity|reflexivity|].
    rewrite <- !app_assoc, IHl, IHr. reflexivity. }
  induction F as [|[d t] F IH]; intros o prev ST; [reflexivity|]. cbn [map].
  change (frontiers ((d, t) :: F)) with (flatten d t ++ frontiers F). rewrite KF.
  destruct (is_pleaf t) eqn:U.
  - destruct t as [h|p m|a b]; try discriminate. cbn [resting] in ST. destruct ST as [_ ST]. cbn [top snd known_leaves pleaves app].
    f_equal. eapply IH. exact ST.
  - rewrite resting_tree in ST by exact U. destruct ST as [E [_ [_ [_ ST]]]]. rewrite E. cbn [app]. rewrite <- (IH _ _ ST).
    destruct t; [reflexivity|discriminate|reflexivity].
Qed.
Lemma lone_length D F : forall o prev, resting D o prev F ->
  map fst (map (lone D) (map (top (width_of D)) F)) = map fst F.
Proof.
  induction F as [|[d t] F IH]; intros o prev ST; [reflexivity|]. apply resting_rooted in ST as [R [o' [p' ST]]]. cbn [map].
  rewrite (IH _ _ ST). f_equal. destruct t as [h|p m|a b]; [reflexivity|cbn in *; congruence|reflexivity].
Qed.
Lemma lone_tops D F : forall o prev, resting D o prev F ->
  map (top (width_of D)) (map (lone D) (map (top (width_of D)) F)) = map (top (width_of D)) F.
Proof.
  induction F as [|[d t] F IH]; intros o prev ST; [reflexivity|]. apply resting_rooted in ST as [R [o' [p' ST]]]. cbn [map].
  rewrite (IH _ _ ST). f_equal. destruct t as [h|p m|a b]; reflexivity.
Qed.
Lemma tops_ok D F : D <= 31 -> forall o prev, resting D o prev F -> okn (frontiers F) -> okn (map (top (width_of D)) F).
Proof.
  intros HD. induction F as [|[d t] F IH]; intros o prev ST V; [constructor|].
  change (frontiers ((d, t) :: F)) with (flatten d t ++ frontiers F) in V. apply Forall_app in V as [V1 V2].
  apply resting_rooted in ST as [R [o' [p' ST]]]. cbn [map]. constructor; [|eapply IH; eassumption].
  destruct t as [h|p m|a b]; [inversion V1; assumption|exact I|]. destruct R as [[Wf _] _]. apply loose_depth in Wf. cbn. lia.
Qed.
Definition kept (ids : list bytes32) (n : tree_node) : Prop :=
  match n with CommitmentLeaf p _ => existsb (b32_eqb p) ids = true | _ => True end.
Lemma kept_hide D ids xs : Forall (kept ids) (map (hide D ids) xs).
Proof.
  apply Forall_map, Forall_forall. intros [d h|p m] _; [exact I|]. cbn. destruct (existsb _ ids) eqn:E; [exact E|exact I].
Qed.
Lemma kept_same D ids xs : Forall (kept ids) xs -> map (hide D ids) xs = xs /\ hidden_leaves ids xs = 0.
Proof.
  induction 1 as [|[d h|p m] xs K _ [I1 I2]]; [split; reflexivity| |].
  - cbn. rewrite I1. split; [reflexivity|exact I2].
  - cbn in *. unfold hidden_leaves in *. cbn. rewrite K, I1. split; [reflexivity|exact I2].
Qed.
Lemma kept_tops D ids F : Forall (kept ids) (frontiers F) -> Forall (kept ids) (map (top (width_of D)) F).
Proof.
  induction F as [|[d t] F IH]; intros K; [constructor|].
  change (frontiers ((d, t) :: F)) with (flatten d t ++ frontiers F) in K. apply Forall_app in K as [K1 K2].
  constructor; [|apply IH; exact K2]. destruct t as [h|p m|a b]; [exact I|inversion K1; assumption|exact I].
Qed.
Lemma hide_leaves D ids xs p : In p ids -> In p (map fst (known_leaves xs)) -> In p (map fst (known_leaves (map (hide D ids) xs))).
Proof.
  intros Hp. induction xs as [|[d h|q m] xs IH]; cbn [map known_leaves hide]; [intros []|exact IH|].
  intros [E|Q].
  - cbn in E. subst q. rewrite (proj2 (mem_In ids p) Hp : existsb (b32_eqb p) ids = true). left. reflexivity.
  - destruct (existsb _ ids); cbn [known_leaves map In]; auto.
Qed.

Lemma rest_again : forall md b ids b' n (valid : valid_block b)
  (known : forall p, In p ids -> In p (map fst (known_leaves (mb_cross_section b))))
  (concealed : conceal_except md b ids = Ret (b', Ok n)), conceal_except md b' ids = Ret (b', Ok 0%N).
Proof.
  intros md b ids b' n Vb KN E.
  assert (R : conceal_except Release b ids = Ret (b', Ok n)) by (destruct md; [apply below_except|]; exact E).
  apply (release_outcome b ids b' n Vb KN) in R as [F [Q [SF [Eb _]]]].
  assert (DX : md = Debug -> Forall (fun x => fst x <= mb_depth b) F /\ (breadth (mb_depth b) F < 2 ^ 32)%N).
  { intros ->. apply (debug_outcome b ids b' n Vb KN) in E as [F2 [Q2 [SF2 [K [T _]]]]].
    rewrite (rest_unique b ids F F2 Vb Q SF Q2 SF2). auto. }
  destruct Vb as [HD [Hc [LN [V _]]]]. set (D := mb_depth b) in *. change (2 ^ N.of_nat D)%N with (width_of D) in *.
  pose proof (hide_ok D ids _ HD V) as VH. pose proof (kept_hide D ids (mb_cross_section b)) as KH.
  assert (KN1 : forall p, In p ids -> In p (map fst (known_leaves (map (hide D ids) (mb_cross_section b)))))
    by (intros p Hp; apply hide_leaves; auto).
  assert (LH : length (frontiers F) = length (mb_cross_section b)) by (rewrite <- Q; apply map_length).
  rewrite Q in VH, KH, KN1.
  destruct (loop_rest D HD (S (length (frontiers F))) F 0%N VH SF ltac:(lia)) as [_ LE].
  assert (CS : mb_cross_section b' = map (top (width_of D)) F) by (rewrite Eb; reflexivity).
  assert (ED : mb_depth b' = D) by (rewrite Eb; reflexivity).
  assert (NE : 1 <= length F). { destruct F; cbn in *; [rewrite <- LH in LN; cbn in LN; lia|lia]. }
  assert (Vb' : valid_block b').
  { rewrite Eb. split; [exact HD|]. split; [exact Hc|]. cbn [mb_cross_section mb_entropy]. rewrite map_length.
    split; [|split; [eapply tops_ok; eassumption|exact I]]. rewrite <- LH in LN. lia. }
  assert (KN' : forall p, In p ids -> In p (map fst (known_leaves (mb_cross_section b')))).
  { intros p Hp. rewrite CS, (tops_leaves D F _ _ SF). auto. }
  destruct (kept_same D ids _ (kept_tops D ids F KH)) as [HS HZ].
  pose proof (lone_length D F _ _ SF) as FM.
  assert (LL : length (map (lone D) (map (top (width_of D)) F)) = length (mb_cross_section b')) by (rewrite CS; apply map_length).
  assert (BR : breadth D (map (lone D) (map (top (width_of D)) F)) = breadth D F).
  { revert FM. generalize (map (lone D) (map (top (width_of D)) F)). clear. induction F as [|x F IH]; intros [|y G] M; try discriminate; [reflexivity|].
    cbn [map] in M. injection M as M1 M2. cbn. unfold breadth in IH. rewrite (IH _ M2), M1. reflexivity. }
  assert (SH : Forall (fun x => fst x <= D) F -> Forall (fun x => fst x <= D) (map (lone D) (map (top (width_of D)) F))).
  { intros K. apply Forall_map with (f := fst) (P := fun d => d <= D). rewrite FM. apply Forall_map. exact K. }
  assert (SAME : b' = MBlock (mb_method b') (mb_depth b') (mb_cofactor b') (map (top (2 ^ N.of_nat (mb_depth b'))) (map (lone D) (map (top (width_of D)) F))) None).
  { rewrite ED. change (2 ^ N.of_nat D)%N with (width_of D). rewrite (lone_tops D F _ _ SF), Eb. reflexivity. }
  destruct md.
  - destruct (DX eq_refl) as [K T]. apply debug_outcome; [exact Vb'|exact KN'|].
    exists (map (lone D) (map (top (width_of D)) F)). rewrite ED in *. rewrite LL. rewrite CS, HS, HZ in *.
    split; [symmetry; apply lone_frontiers|]. split; [apply resting_tops; exact SF|].
    split; [apply SH; exact K|]. split; [rewrite BR; exact T|]. split; [left; reflexivity|]. split; [exact SAME|lia].
  - apply release_outcome; [exact Vb'|exact KN'|].
    exists (map (lone D) (map (top (width_of D)) F)). rewrite ED in *. rewrite LL. rewrite CS, HS, HZ in *.
    split; [symmetry; apply lone_frontiers|]. split; [apply resting_tops; exact SF|]. split; [exact SAME|lia].
Qed.

End Resting.

(** ** C122 *)
Lemma c122_release : forall (H : Hasher) b ids b' n (valid : valid_block b)
  (known : forall p, In p ids -> In p (map fst (known_leaves (mb_cross_section b)))),
  conceal_except Release b ids = Ret (b', Ok n) <->
  exists F, map (hide (mb_depth b) ids) (mb_cross_section b) = frontiers F /\ resting (mb_depth b) 0 None F /\
    b' = MBlock (mb_method b) (mb_depth b) (mb_cofactor b) (map (top (2 ^ N.of_nat (mb_depth b))) F) None /\
    n = (N.of_nat (hidden_leaves ids (mb_cross_section b)) + (N.of_nat (length (mb_cross_section b)) - N.of_nat (length F)))%N.
Proof. exact @release_outcome. Qed.

Lemma c122_debug : forall (H : Hasher) b ids b' n (valid : valid_block b)
  (known : forall p, In p ids -> In p (map fst (known_leaves (mb_cross_section b)))),
  conceal_except Debug b ids = Ret (b', Ok n) <->
  exists F, map (hide (mb_depth b) ids) (mb_cross_section b) = frontiers F /\ resting (mb_depth b) 0 None F /\
    Forall (fun x => fst x <= mb_depth b) F /\ (breadth (mb_depth b) F < 2 ^ 32)%N /\
    (length F = length (mb_cross_section b) \/ breadth (mb_depth b) F = 2 ^ N.of_nat (mb_depth b))%N /\
    b' = MBlock (mb_method b) (mb_depth b) (mb_cofactor b) (map (top (2 ^ N.of_nat (mb_depth b))) F) None /\
    n = (N.of_nat (hidden_leaves ids (mb_cross_section b)) + (N.of_nat (length (mb_cross_section b)) - N.of_nat (length F)))%N.
Proof. exact @debug_outcome. Qed.

Lemma c122_unique : forall (H : Hasher) b ids F F' (valid : valid_block b)
  (one : map (hide (mb_depth b) ids) (mb_cross_section b) = frontiers F) (first : resting (mb_depth b) 0 None F)
  (other : map (hide (mb_depth b) ids) (mb_cross_section b) = frontiers F') (second : resting (mb_depth b) 0 None F'), F = F'.
Proof. exact @rest_unique. Qed.

Lemma c122_again : forall (H : Hasher) md b ids b' n (valid : valid_block b)
  (known : forall p, In p ids -> In p (map fst (known_leaves (mb_cross_section b))))
  (concealed : conceal_except md b ids = Ret (b', Ok n)), conceal_except md b' ids = Ret (b', Ok 0%N).
Proof. exact @rest_again. Qed.
