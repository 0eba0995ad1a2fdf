(** C81: what is shown of a tree does not determine what is hidden. *)
From Verif Require Import Base BaseFacts OrdMap OrdMapFacts MpcAtoms MpcTree MpcBlock.
From Verif Require Import SpecHash SpecTree SpecFull SpecLocal SpecValid SpecCommit SpecDerived SpecBlock.
From Verif Require Import HashFacts TreeFacts MpcTreeProofs ConcealProofs DerivedProofs TheoremsMpc TheoremsBlock TheoremsLocal HideProofs.
Local Open Scope nat_scope.

Definition tcells (t : merkle_tree) : cells := fun i => om_get N.ltb i (mt_map t).

Lemma full_lpt {H : Hasher} t : tree_full t = full_tree (mt_depth t) 0 (lpt (tcells t) (mt_entropy t)).
Proof. reflexivity. Qed.

Lemma s_entropy_pos {H : Hasher} e e' i j : (i < 2 ^ 32)%N -> (j < 2 ^ 32)%N -> s_entropy e i = s_entropy e' j -> i = j.
Proof.
  intros I J E. apply s_pre_inj in E. apply cons_inv in E as [_ E].
  apply app_inv_length in E as [_ E]; [|rewrite !le_length; reflexivity]. apply (le_inj 4); assumption.
Qed.

(** Strings of the inner nodes and leaves *)
Lemma ppre_nodes {H : Hasher} D W c e k : forall o x, k <= D ->
  In x (ppre W (D - k) (full_tree k o (lpt c e))) ->
  exists k2 o2, sub k o k2 o2 /\ x = nstr D W c e k2 o2.
Proof.
  induction k as [|k IH]; intros o x K I; cbn [full_tree] in I.
  - exists 0, o. split; [apply sub_refl|]. unfold lpt in I. cbn [nstr]. unfold lstr. destruct (c o) as [[p m]|]; cbn in I; [|tauto].
    destruct I as [<-|[]]. reflexivity.
  - cbn [ppre] in I. replace (S (D - S k)) with (D - k) in I by lia. destruct I as [<-|I].
    + exists (S k), o. split; [apply sub_refl|reflexivity].
    + apply in_app_or in I as [I|I]; apply IH in I as [k2 [o2 [S E]]]; try lia; exists k2, o2; (split; [|exact E]); [apply sub_l|apply sub_r]; exact S.
Qed.
Lemma nodes_ppre {H : Hasher} D W c e k o k2 o2 : k <= D -> sub k o k2 o2 ->
  In (nstr D W c e k2 o2) (ppre W (D - k) (full_tree k o (lpt c e))) \/
  (k2 = 0 /\ c o2 = None /\ nstr D W c e k2 o2 = s_entropy e o2).
Proof.
  intros K S. induction S as [k o|k o k2 o2 S IH|k o k2 o2 S IH].
  - destruct k as [|k].
    + cbn [full_tree nstr]. unfold lstr, lpt. destruct (c o) as [[p m]|]; [left; left; reflexivity|right; auto].
    + left. cbn [full_tree ppre]. left. replace (Datatypes.S (D - Datatypes.S k)) with (D - k) by lia. reflexivity.
  - destruct IH as [I|I]; [lia|left|right; exact I]. cbn [full_tree ppre]. replace (Datatypes.S (D - Datatypes.S k)) with (D - k) by lia.
    right. apply in_or_app. left. exact I.
  - destruct IH as [I|I]; [lia|left|right; exact I]. cbn [full_tree ppre]. replace (Datatypes.S (D - Datatypes.S k)) with (D - k) by lia.
    right. apply in_or_app. right. exact I.
Qed.
Lemma node_pos D i : sub D 0 0 i -> (i < 2 ^ N.of_nat D)%N.
Proof. intros S. apply sub_bounds in S. change (2 ^ N.of_nat 0)%N with 1%N in S. lia. Qed.
Lemma pos_node k : forall o i, (o <= i < o + 2 ^ N.of_nat k)%N -> sub k o 0 i.
Proof.
  induction k as [|k IH]; intros o i L.
  - change (2 ^ N.of_nat 0)%N with 1%N in L. replace i with o by lia. apply sub_refl.
  - rewrite Nat2N.inj_succ, N.pow_succ_r' in L. destruct (N.lt_ge_cases i (o + 2 ^ N.of_nat k)%N); [apply sub_l|apply sub_r]; apply IH; lia.
Qed.

Section Two.
Context {H : Hasher}.
Notation Wt t := (2 ^ N.of_nat (mt_depth t))%N.

Lemma tree_nodes t k o : sub (mt_depth t) 0 k o -> In (nstr (mt_depth t) (Wt t) (tcells t) (mt_entropy t) k o) (tree_pre t).
Proof.
  intros S. unfold tree_pre, pcommit_pre. rewrite full_lpt.
  destruct (nodes_ppre (mt_depth t) (Wt t) (tcells t) (mt_entropy t) _ _ _ _ (le_n _) S) as [I|[-> [C E]]].
  - rewrite Nat.sub_diag in I. apply in_or_app. left. apply in_or_app. right. exact I.
  - apply in_or_app. right. rewrite E. unfold entropy_pre. apply in_flat_map. exists o. split.
    + unfold N_from. apply in_map_iff. exists (N.to_nat o). split; [lia|]. apply in_seq. apply node_pos in S.
      replace (2 ^ mt_depth t) with (N.to_nat (Wt t)) by (rewrite N2Nat.inj_pow, Nat2N.id; reflexivity). lia.
    + unfold tcells in C. rewrite C. left. reflexivity.
Qed.
Lemma tree_strings t x : In x (tree_pre t) ->
  x = s_node_tag \/ x = s_commit_tag \/ (exists r, x = s_commit (mt_depth t) (mt_cofactor t) r) \/
  exists k o, sub (mt_depth t) 0 k o /\ x = nstr (mt_depth t) (Wt t) (tcells t) (mt_entropy t) k o.
Proof.
  unfold tree_pre, pcommit_pre. intros I. apply in_app_or in I as [I|I].
  - destruct I as [<-|[<-|[<-|I]]]; [auto|auto|right; right; left; eauto|]. rewrite full_lpt in I.
    pose proof (ppre_nodes (mt_depth t) (Wt t) (tcells t) (mt_entropy t) _ 0 x (le_n _)) as P. rewrite Nat.sub_diag in P.
    right. right. right. apply P. exact I.
  - right. right. right. unfold entropy_pre in I. apply in_flat_map in I as [o [J I]].
    destruct (om_get N.ltb o (mt_map t)) as [|] eqn:C; [destruct I|]. destruct I as [<-|[]].
    exists 0, o. split.
    + apply pos_node. unfold N_from in J. apply in_map_iff in J as [n [<- J]]. apply in_seq in J.
      replace (2 ^ mt_depth t) with (N.to_nat (Wt t)) in J by (rewrite N2Nat.inj_pow, Nat2N.id; reflexivity). lia.
    + cbn [nstr]. unfold lstr, tcells. rewrite C. reflexivity.
Qed.
Lemma cell_pos t i p m : good_tree t -> tcells t i = Some (p, m) ->
  In (p, m) (mt_messages t) /\ i = s_pos p (mt_cofactor t) (mt_depth t).
Proof. intros G C. apply (gt_map _ G). apply (om_get_In N.ltb). exact C. Qed.
Lemma pos_cell t p m : good_tree t -> In (p, m) (mt_messages t) -> tcells t (s_pos p (mt_cofactor t) (mt_depth t)) = Some (p, m).
Proof. intros G I. apply (om_In_get N.ltb); [exact (gt_map_sorted _ G)|]. apply (gt_map _ G). auto. Qed.

Lemma leaves_det t t' i j : good_tree t -> good_tree t' -> mt_depth t = mt_depth t' -> mt_cofactor t = mt_cofactor t' ->
  sub (mt_depth t) 0 0 i -> sub (mt_depth t) 0 0 j ->
  lstr (tcells t) (mt_entropy t) i = lstr (tcells t') (mt_entropy t') j -> i = j.
Proof.
  intros G G' ED EC Si Sj E. apply node_pos in Si. apply node_pos in Sj. pose proof (gt_depth _ G).
  assert (W32 : (Wt t <= 2 ^ 31)%N) by (apply N.pow_le_mono_r; lia).
  unfold lstr in E. destruct (tcells t i) as [[p m]|] eqn:C, (tcells t' j) as [[p' m']|] eqn:C'.
  - apply s_leaf_inj in E as [-> ->]. apply (cell_pos _ _ _ _ G) in C as [_ ->]. apply (cell_pos _ _ _ _ G') in C' as [_ ->].
    rewrite ED, EC. reflexivity.
  - exfalso. exact (s_leaf_entropy _ _ _ _ E).
  - exfalso. symmetry in E. exact (s_leaf_entropy _ _ _ _ E).
  - apply s_entropy_pos in E; [exact E|lia|lia].
Qed.
End Two.

(** ** C81 *)
Lemma c81_hidden : forall (H : Hasher) md src src' rng rng' t t' ids b n
  (valid : valid_source src) (valid' : valid_source src')
  (made : try_commit src rng = Ret (Ok t)) (made' : try_commit src' rng' = Ret (Ok t'))
  (same_method : ms_method src = ms_method src')
  (same_depth : mt_depth t = mt_depth t') (same_cofactor : mt_cofactor t = mt_cofactor t')
  (shared : forall p, In p ids -> exists m, In (p, m) (ms_messages src) /\ In (p, m) (ms_messages src'))
  (shown : conceal_except md (block_of_tree t) ids = Ret (b, Ok n)),
  (exists H' : Hasher,
     (forall x, @HASH H' x <> @HASH H x -> In x (@tree_pre H t') /\ ~ In x (@tree_pre H t)) /\
     forall u, u = t \/ u = t' ->
       (exists n', @conceal_except H' md (@block_of_tree H' u) ids = Ret (b, Ok n')) /\
       @tree_commit_id H' md u = @tree_commit_id H md t /\
       forall p, In p ids ->
         @to_merkle_proof H' md (@block_of_tree H' u) p = @to_merkle_proof H md (@block_of_tree H t) p) \/
  collision_in (tree_pre t ++ tree_pre t').
Proof.
  intros H md src src' rng rng' t t' ids b n V V' E E' QM QD QC SH S.
  pose proof (try_commit_good _ _ _ V E) as G. pose proof (try_commit_good _ _ _ V' E') as G'.
  pose proof (try_commit_spec src rng (proj1 V) (proj1 (proj2 V))) as T. cbv zeta in T. rewrite E in T.
  destruct T as [_ [_ [TM [Ms _]]]].
  pose proof (try_commit_spec src' rng' (proj1 V') (proj1 (proj2 V'))) as T. cbv zeta in T. rewrite E' in T.
  destruct T as [_ [_ [TM' [Ms' _]]]].
  destruct (coll_dec (tree_pre t ++ tree_pre t')) as [C|C]; [right; exact C|left].
  set (D := mt_depth t) in *. set (W := (2 ^ N.of_nat D)%N). set (c := tcells t). set (c' := tcells t').
  set (e := mt_entropy t). set (e' := mt_entropy t'). set (f := mem ids). set (L := tree_pre t ++ tree_pre t') in *.
  assert (HD : D <= 31) by exact (gt_depth _ G).
  assert (HW : (W < 2 ^ 256)%N) by (apply N.pow_lt_mono_r; lia).
  assert (inL : forall s k o, node D k o -> In (nstr D W (cs c c' s) (es e e' s) k o) L).
  { intros [|] k o N; apply in_or_app; [left|right].
    - exact (tree_nodes t k o N).
    - pose proof (tree_nodes t' k o) as Q. rewrite <- QD in Q. exact (Q N). }
  assert (tagL : In s_node_tag L /\ In s_commit_tag L).
  { split; apply in_or_app; left; apply in_or_app; left; [left; reflexivity|right; left; reflexivity]. }
  assert (leafdet : forall s s' i j, node D 0 i -> node D 0 j -> lstr (cs c c' s) (es e e' s) i = lstr (cs c c' s') (es e e' s') j -> i = j).
  { intros [|] [|] i j Ni Nj Q.
    - exact (leaves_det t t i j G G eq_refl eq_refl Ni Nj Q).
    - exact (leaves_det t t' i j G G' QD QC Ni Nj Q).
    - pose proof (leaves_det t' t i j G' G (eq_sym QD) (eq_sym QC)) as P. rewrite <- QD in P. exact (P Ni Nj Q).
    - pose proof (leaves_det t' t' i j G' G' eq_refl eq_refl) as P. rewrite <- QD in P. exact (P Ni Nj Q). }
  assert (mine : forall p m, In p ids -> In (p, m) (ms_messages src) -> In (p, m) (ms_messages src')).
  { intros p m I J. destruct (SH p I) as [m0 [J1 J2]]. rewrite <- Ms in J, J1.
    apply (pos_cell _ _ _ G) in J. apply (pos_cell _ _ _ G) in J1. assert (m = m0) by congruence. subst m0. exact J2. }
  assert (theirs : forall p m, In p ids -> In (p, m) (ms_messages src') -> In (p, m) (ms_messages src)).
  { intros p m I J. destruct (SH p I) as [m0 [J1 J2]]. rewrite <- Ms' in J, J2.
    apply (pos_cell _ _ _ G') in J. apply (pos_cell _ _ _ G') in J2. assert (m = m0) by congruence. subst m0. exact J1. }
  assert (agree : forall i, node D 0 i ->
     match c i with Some (p, m) => if f p then Some (p, m) else None | None => None end =
     match c' i with Some (p, m) => if f p then Some (p, m) else None | None => None end).
  { assert (A : forall i p m, c i = Some (p, m) -> f p = true -> c' i = Some (p, m)).
    { intros i p m Q F. apply (cell_pos _ _ _ _ G) in Q as [I ->]. rewrite Ms in I. apply mine in I; [|apply mem_In; exact F].
      rewrite <- Ms' in I. apply (pos_cell _ _ _ G') in I. unfold c'. fold D. rewrite QC, QD. exact I. }
    assert (B : forall i p m, c' i = Some (p, m) -> f p = true -> c i = Some (p, m)).
    { intros i p m Q F. apply (cell_pos _ _ _ _ G') in Q as [I ->]. rewrite Ms' in I. apply theirs in I; [|apply mem_In; exact F].
      rewrite <- Ms in I. apply (pos_cell _ _ _ G) in I. unfold c. rewrite <- QC, <- QD. exact I. }
    intros i _. destruct (c i) as [[p m]|] eqn:Q, (c' i) as [[p' m']|] eqn:Q'; try reflexivity.
    - destruct (f p) eqn:F; [rewrite (A _ _ _ Q F) in Q'; injection Q' as <- <-; rewrite F; reflexivity|].
      destruct (f p') eqn:F'; [|reflexivity]. rewrite (B _ _ _ Q' F') in Q. congruence.
    - destruct (f p) eqn:F; [|reflexivity]. rewrite (A _ _ _ Q F) in Q'. discriminate.
    - destruct (f p') eqn:F'; [|reflexivity]. rewrite (B _ _ _ Q' F') in Q. discriminate. }
  set (H2 := H' H D W c c' e e' f).
  assert (know : forall (Hs : Hasher) u, u = t \/ u = t' -> forall p, In p ids -> In p (map fst (pleaves (@tree_full Hs u)))).
  { intros Hs u U p I. destruct (SH p I) as [m [J1 J2]]. apply in_map_iff. exists (p, m). split; [reflexivity|].
    destruct U as [-> | ->]; apply tree_full_pleaves; [exact G|rewrite Ms; exact J1|exact G'|rewrite Ms'; exact J2]. }
  assert (con : forall (Hs : Hasher) u, u = t \/ u = t' -> exists n', @conceal_except Hs md (@block_of_tree Hs u) ids =
     Ret (MBlock (ms_method src) D (mt_cofactor t) (flatten 0 (@prestrict Hs f W 0 (@tree_full Hs u))) None, Ok n')).
  { intros Hs u U. eexists.
    assert (Gu : good_tree u) by (destruct U as [-> | ->]; assumption).
    destruct (@block_of_tree_wf Hs u Gu) as [B1 [_ [B2 B3]]].
    rewrite (@conceal_except_ok Hs md _ _ ids B1 B2 (pwf_loose_of _ _ _ B3) (know Hs u U)).
    destruct U as [-> | ->]; cbn [block_of_tree mb_method mb_depth mb_cofactor].
    - rewrite TM. reflexivity.
    - rewrite TM', <- QM, <- QC, <- QD. reflexivity. }
  assert (prf : forall (Hs : Hasher) p, In p ids -> forall u, u = t \/ u = t' -> let pos := s_pos p (mt_cofactor t) D in
     @to_merkle_proof Hs md (@block_of_tree Hs u) p = Ret (Ok (MProof (ms_method src) pos (mt_cofactor t)
       (@aside Hs W 0 D 0 (@lpt Hs (tcells u) (mt_entropy u)) pos)))).
  { intros Hs p I u U pos. destruct (SH p I) as [m [J1 J2]]. destruct U as [-> | ->].
    - exact (@tree_proof_is Hs md src rng t p m V E J1).
    - rewrite (@tree_proof_is Hs md src' rng' t' p m V' E' J2). unfold tree_aside. rewrite <- QM, <- QC, <- QD. reflexivity. }
  exists H2. split.
  - intros x X. apply (changed_new H D W HD HW c c' e e' f L C inL tagL leafdet) in X as [[k [o [N ->]]] [X2 [X3 [X4 X5]]]]. split.
    + pose proof (@tree_nodes H t' k o) as Q. rewrite <- QD in Q. exact (Q N).
    + intros I. apply (@tree_strings H) in I as [I|[I|[[r I]|[k2 [o2 [N2 I]]]]]]; [tauto|tauto|exact (X5 _ _ _ I)|exact (X2 k2 o2 N2 I)].
  - assert (SU : forall u, u = t \/ u = t' ->
      @prestrict H2 f W 0 (@tree_full H2 u) = @prestrict H f W 0 (@tree_full H t) /\
      @phash H2 W 0 (@tree_full H2 u) = @phash H W 0 (@tree_full H t) /\
      forall p, In p ids -> let pos := s_pos p (mt_cofactor t) D in
        @aside H2 W 0 D 0 (@lpt H2 (tcells u) (mt_entropy u)) pos = @aside H W 0 D 0 (@lpt H (tcells t) (mt_entropy t)) pos).
    { intros u [-> | ->]; rewrite !full_lpt; rewrite <- ?QD; fold D.
      - split; [|split].
        + pose proof (first_restrict H D W HD HW c c' e e' f L C inL tagL leafdet D 0 (sub_refl _ _)) as Q. rewrite Nat.sub_diag in Q. exact Q.
        + pose proof (first_nh H D W HD HW c c' e e' f L C inL tagL leafdet D 0 (sub_refl _ _)) as Q. unfold nh in Q. rewrite Nat.sub_diag in Q. exact Q.
        + intros p I pos. pose proof (first_aside H D W HD HW c c' e e' f L C inL tagL leafdet D 0 pos (sub_refl _ _)) as Q. rewrite Nat.sub_diag in Q. exact Q.
      - split; [|split].
        + exact (restrict_root H D W HD HW c c' e e' f L C inL tagL leafdet agree).
        + pose proof (root_hash H D W HD HW c c' e e' f L C inL tagL leafdet agree) as Q. unfold nh in Q. rewrite Nat.sub_diag in Q. exact Q.
        + intros p I pos. pose proof (aside_same H D W HD HW c c' e e' f L C inL tagL leafdet agree D 0 pos (sub_refl _ _)) as Q.
          rewrite Nat.sub_diag in Q. apply Q.
          * apply pos_node. pose proof (pos_spec p (mt_cofactor t) D HD). unfold pos. lia.
          * destruct (SH p I) as [m [J1 _]]. rewrite <- Ms in J1. apply (pos_cell _ _ _ G) in J1. cbn [vis]. unfold c. fold D in J1. fold pos in J1.
            rewrite J1. apply mem_In. exact I. }
    intros u U. destruct (SU u U) as [U1 [U2 U3]]. split; [|split].
    + destruct (con H2 u U) as [n' Q]. exists n'. rewrite Q. destruct (con H t (or_introl eq_refl)) as [n0 Q0].
      rewrite Q0 in S. injection S as <- _. rewrite U1. reflexivity.
    + assert (Gu : good_tree u /\ mt_depth u = D /\ mt_cofactor u = mt_cofactor t) by (destruct U as [-> | ->]; auto).
      destruct Gu as [Gu [Du Cu]]. rewrite (@tree_commit_ok H2 md u Gu), (@tree_commit_ok H md t G). unfold pcommit. rewrite Du, Cu.
      fold D. fold W. rewrite U2. f_equal. unfold H2.
      rewrite (s_commit_same H D W HD HW c c' e e' f).
      exact (commit_same H D W c c' e e' f L C tagL _ _ _).
    + intros p I. rewrite (prf H2 p I u U), (prf H p I t (or_introl eq_refl)). cbv zeta. rewrite (U3 p I). reflexivity.
Qed.
