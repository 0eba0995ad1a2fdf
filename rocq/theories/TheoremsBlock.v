(** Properties of Merkle blocks in terms of the specifications (restated in PropBlock.v). *)
From Verif Require Import Base BaseFacts OrdMap OrdMapFacts Strict Digest Merkle MpcAtoms MpcTree MpcBlock Schemes.
From Verif Require Import SpecHash SpecTree SpecMerkle SpecCommit SpecFull SpecValid SpecDerived SpecEngine SpecBlock.
From Verif Require Import HashFacts TreeFacts ConcealProofs BlockInv PathProofs MergeProofs MerkleProofs.
From Verif Require Import MpcTreeProofs DerivedProofs Engine EngineProofs MiscProofs TheoremsMpc.
From Coq Require Import Permutation Sorting.Sorted.
Local Open Scope nat_scope.

Lemma wf_leaves b t : block_tree b t -> known_leaves (mb_cross_section b) = pleaves t.
Proof. intros [_ [_ [E _]]]. rewrite E. apply known_leaves_flatten. Qed.
Lemma wf_known b t : block_tree b t -> known_protocol_ids b = map fst (pleaves t).
Proof. intros B. unfold known_protocol_ids. rewrite (wf_leaves b t B). reflexivity. Qed.
Lemma wf_commit {H : Hasher} md b t : block_tree b t -> block_commit_id md b = Ret (pcommit (mb_depth b) (mb_cofactor b) t).
Proof. intros [B1 [B2 [B3 B4]]]. apply block_commit_id_ok; try assumption. apply pwf_loose_of. exact B4. Qed.

Lemma wf_conceal {H : Hasher} md b t ids :
  block_tree b t -> (forall p, In p ids -> In p (known_protocol_ids b)) ->
  let t' := prestrict (mem ids) (width_of (mb_depth b)) 0 t in
  let b' := MBlock (mb_method b) (mb_depth b) (mb_cofactor b) (flatten 0 t') None in
  conceal_except md b ids = Ret (b', Ok (N.of_nat (length (filter (fun e => negb (mem ids (fst e))) (pleaves t))) +
           (N.of_nat (length (flatten 0 t)) - N.of_nat (length (flatten 0 t'))))%N) /\ block_tree b' t'.
Proof.
  intros B K. cbv zeta. pose proof B as [B1 [B2 [B3 B4]]]. rewrite (wf_known b t B) in K. split.
  - apply conceal_except_ok; try assumption. apply pwf_loose_of. exact B4.
  - repeat split; cbn; try assumption. apply prestrict_pwf. exact B4.
Qed.

(** ** C08 *)
Lemma c08_conceal : forall (H : Hasher) md b ids
  (wf : wf_block b) (revealed : forall p, In p ids -> In p (known_protocol_ids b)),
  exists b' n c, conceal_except md b ids = Ret (b', Ok n) /\ wf_block b' /\
    block_commit_id md b = Ret c /\ block_commit_id md b' = Ret c /\
    known_leaves (mb_cross_section b') =
      filter (fun e => existsb (b32_eqb (fst e)) ids) (known_leaves (mb_cross_section b)) /\
    mb_entropy b' = None /\ mb_method b' = mb_method b /\ mb_depth b' = mb_depth b /\
    mb_cofactor b' = mb_cofactor b.
Proof.
  intros H md b ids [t B] K. destruct (wf_conceal md b t ids B K) as [C B'].
  eexists. eexists. exists (pcommit (mb_depth b) (mb_cofactor b) t).
  split; [exact C|split; [eexists; exact B'|split; [apply wf_commit; exact B|split; [|split]]]].
  - rewrite (wf_commit md _ _ B'). cbn [mb_depth mb_cofactor]. unfold pcommit, width_of. rewrite prestrict_phash. reflexivity.
  - rewrite (wf_leaves _ _ B'), (wf_leaves _ _ B), prestrict_leaves. reflexivity.
  - cbn. auto.
Qed.
Lemma c08_conceal_other : forall (H : Hasher) md b p b' r,
  conceal_other md b p = Ret (b', r) <->
  exists r', conceal_except md b [p] = Ret (b', r') /\
    r = match r' with Ok _ => Ok tt | Err q => Err q end.
Proof.
  intros H md b p b' r. unfold conceal_other. destruct (conceal_except md b [p]) as [[b1 r1]|q]; cbn.
  - split.
    + intros E. injection E as <- <-. exists r1. auto.
    + intros [r' [E ->]]. injection E as <- <-. reflexivity.
  - split; [discriminate|]. intros [r' [E _]]. discriminate.
Qed.

(** ** C09 *)
Lemma c09_maximal : forall (H : Hasher) md b ids b' n
  (wf : wf_block b) (done : conceal_except md b ids = Ret (b', Ok n)),
  exists t', block_tree b' t' /\ pmaximal t'.
Proof.
  intros H md b ids b' n [t B] E.
  assert (K : forall p, In p ids -> In p (known_protocol_ids b)).
  { intros p I. rewrite (wf_known b t B). destruct (mem (map fst (pleaves t)) p) eqn:M; [apply mem_In; exact M|].
    assert (NI : ~ In p (map fst (pleaves t))) by (intros X; apply mem_In in X; congruence).
    pose proof B as [B1 [B2 [B3 B4]]].
    destruct (conceal_except_err md b t ids p B3 (pwf_loose_of _ _ _ B4) I NI) as [q [C _]]. congruence. }
  destruct (wf_conceal md b t ids B K) as [C B']. rewrite C in E. injection E as <- _.
  eexists. split; [exact B'|]. apply prestrict_maximal.
Qed.
Lemma conceal_ok_known {H : Hasher} md b t ids b' n : block_tree b t -> conceal_except md b ids = Ret (b', Ok n) ->
  forall p, In p ids -> In p (known_protocol_ids b).
Proof.
  intros B E p I. rewrite (wf_known b t B). destruct (mem (map fst (pleaves t)) p) eqn:M; [apply mem_In; exact M|].
  assert (NI : ~ In p (map fst (pleaves t))) by (intros X; apply mem_In in X; congruence).
  pose proof B as [B1 [B2 [B3 B4]]].
  destruct (conceal_except_err md b t ids p B3 (pwf_loose_of _ _ _ B4) I NI) as [q [C _]]. congruence.
Qed.
Lemma mem_ext ids ids' : (forall p, In p ids <-> In p ids') -> forall p, mem ids p = mem ids' p.
Proof.
  intros E p. destruct (mem ids p) eqn:M, (mem ids' p) eqn:M'; try reflexivity; exfalso.
  - apply mem_In, E, mem_In in M. congruence.
  - apply mem_In, E, mem_In in M'. congruence.
Qed.
Lemma c09_any_order : forall (H : Hasher) md b ids ids' b' n
  (wf : wf_block b) (same : forall p, In p ids <-> In p ids')
  (done : conceal_except md b ids = Ret (b', Ok n)),
  conceal_except md b ids' = Ret (b', Ok n).
Proof.
  intros H md b ids ids' b' n [t B] S E. pose proof (conceal_ok_known md b t ids b' n B E) as K.
  assert (K' : forall p, In p ids' -> In p (known_protocol_ids b)) by (intros p I; apply K, S, I).
  destruct (wf_conceal md b t ids B K) as [C _]. destruct (wf_conceal md b t ids' B K') as [C' _].
  rewrite <- E, C, C'.
  rewrite (prestrict_ext (mem ids') (mem ids)) by (intros p m _; symmetry; apply mem_ext; exact S).
  replace (filter (fun e => negb (mem ids' (fst e))) (pleaves t)) with
          (filter (fun e => negb (mem ids (fst e))) (pleaves t)); [reflexivity|].
  apply filter_ext. intros e. rewrite (mem_ext ids ids' S). reflexivity.
Qed.
Lemma c09_two_steps : forall (H : Hasher) md b big ids b1 n1 b2 n2
  (wf : wf_block b) (subset : incl ids big)
  (first : conceal_except md b big = Ret (b1, Ok n1)) (second : conceal_except md b1 ids = Ret (b2, Ok n2)),
  exists n, conceal_except md b ids = Ret (b2, Ok n).
Proof.
  intros H md b big ids b1 n1 b2 n2 [t B] S E1 E2.
  pose proof (conceal_ok_known md b t big b1 n1 B E1) as K.
  destruct (wf_conceal md b t big B K) as [C B1]. rewrite E1 in C. injection C as -> ->.
  pose proof (conceal_ok_known md _ _ ids b2 n2 B1 E2) as K1.
  destruct (wf_conceal md _ _ ids B1 K1) as [C _]. rewrite E2 in C. injection C as -> _.
  assert (K2 : forall p, In p ids -> In p (known_protocol_ids b)) by (intros p I; apply K, S, I).
  destruct (wf_conceal md b t ids B K2) as [C _]. eexists. rewrite C. cbn [mb_method mb_depth mb_cofactor].
  rewrite prestrict_twice.
  rewrite (prestrict_ext (mem ids) (fun p => mem big p && mem ids p)); [reflexivity|].
  intros p m _. destruct (mem ids p) eqn:M; [|rewrite andb_false_r; reflexivity].
  apply mem_In, S, mem_In in M. rewrite M. reflexivity.
Qed.

Section Views.
Context {H : Hasher}.
Lemma view_count f W d t s : pview W d t s ->
  length (filter f (pleaves t)) <= length (filter f (pleaves s)).
Proof.
  revert d s. induction t as [h|p m|l IHl r IHr]; intros d s V.
  - cbn. lia.
  - destruct s as [h'|p' m'|l' r']; cbn in V; try contradiction. destruct V as [-> ->]. reflexivity.
  - destruct s as [h'|p' m'|l' r']; cbn in V; try contradiction. destruct V as [V1 V2]. cbn.
    rewrite !filter_app, !app_length. specialize (IHl _ _ V1). specialize (IHr _ _ V2). lia.
Qed.
Lemma existsb_length {A} (f : A -> bool) l : existsb f l = negb (length (filter f l) =? 0).
Proof. induction l as [|a l IH]; cbn; [reflexivity|]. destruct (f a); cbn; [reflexivity|exact IH]. Qed.
Lemma view_restrict f W d t s : pview W d t s ->
  length (filter (fun e => f (fst e)) (pleaves t)) = length (filter (fun e => f (fst e)) (pleaves s)) ->
  prestrict f W d t = prestrict f W d s.
Proof.
  revert d s. induction t as [h|p m|l IHl r IHr]; intros d s V L.
  - cbn in V. subst h. cbn in L. rewrite (prestrict_none f W d s); [reflexivity|].
    rewrite existsb_length, <- L. reflexivity.
  - destruct s as [h'|p' m'|l' r']; cbn in V; try contradiction. destruct V as [-> ->]. reflexivity.
  - destruct s as [h'|p' m'|l' r']; cbn in V; try contradiction. pose proof V as [V1 V2].
    pose proof (view_count (fun e => f (fst e)) _ _ _ _ V1) as C1.
    pose proof (view_count (fun e => f (fst e)) _ _ _ _ V2) as C2.
    cbn [pleaves] in L. rewrite !filter_app, !app_length in L.
    cbn [prestrict]. rewrite !existsb_length. cbn [pleaves]. rewrite !filter_app, !app_length.
    rewrite L. destruct (negb _).
    + rewrite (IHl _ _ V1), (IHr _ _ V2) by lia. reflexivity.
    + f_equal. exact (pview_phash W d (PBr l r) (PBr l' r') V).
Qed.
Lemma filter_count (l l' : list (bytes32 * bytes32)) f :
  NoDup (map fst l') -> NoDup (map fst l) -> incl l l' -> (forall e, In e l' -> f (fst e) = true -> In (fst e) (map fst l)) ->
  length (filter (fun e => f (fst e)) l) = length (filter (fun e => f (fst e)) l').
Proof.
  intros N' N I K. apply Permutation_length. apply NoDup_Permutation.
  - apply NoDup_filter. exact (NoDup_map_inv fst _ N).
  - apply NoDup_filter. exact (NoDup_map_inv fst _ N').
  - intros [p m]. rewrite !filter_In. cbn. split.
    + intros [A B]. split; [apply I; exact A|exact B].
    + intros [A B]. split; [|exact B]. specialize (K _ A B). cbn in K.
      apply in_map_iff in K as [[p' m'] [E X]]. cbn in E. subst p'.
      assert (m = m'); [|subst; exact X]. apply I in X. clear -N' A X.
      induction l' as [|[a b] l' IH]; [destruct A|]. cbn in N'. inversion N' as [|? ? NI ND]; subst.
      destruct A as [A|A], X as [X|X]; try congruence; auto.
      * injection A as -> ->. exfalso. apply NI. apply in_map_iff. exists (p, m'). auto.
      * injection X as -> ->. exfalso. apply NI. apply in_map_iff. exists (p, m). auto.
Qed.
End Views.

Lemma full_nodup {H : Hasher} t : good_tree t -> NoDup (map fst (pleaves (tree_full t))).
Proof.
  intros G. pose proof (placed_sorted _ _ _ (tree_full_pwf t) (tree_full_placed t G) (gt_depth t G)) as S.
  apply sorted_lt_NoDup in S.
  apply (NoDup_map_inv (fun p => s_pos p (mt_cofactor t) (mt_depth t))). rewrite map_map. exact S.
Qed.
Lemma view_nodup {H : Hasher} t b pt : good_tree t -> view_block t b pt -> NoDup (map fst (pleaves pt)).
Proof.
  intros G VB. pose proof VB as [[B1 [_ [_ B4]]] _].
  pose proof (placed_sorted _ _ _ B4 (view_block_placed t b pt G VB) B1) as S.
  apply sorted_lt_NoDup in S.
  apply (NoDup_map_inv (fun p => s_pos p (mb_cofactor b) (mb_depth b))). rewrite map_map. exact S.
Qed.
Lemma c09_canonical : forall (H : Hasher) md src rng t b1 b2 ids b1' n1 b2' n2
  (valid : valid_source src) (made : try_commit src rng = Ret (Ok t))
  (from1 : derived md t b1) (from2 : derived md t b2)
  (done1 : conceal_except md b1 ids = Ret (b1', Ok n1)) (done2 : conceal_except md b2 ids = Ret (b2', Ok n2)),
  b1' = b2'.
Proof.
  intros H md src rng t b1 b2 ids b1' n1 b2' n2 V E D1 D2 E1 E2.
  pose proof (try_commit_good _ _ _ V E) as G.
  assert (X : forall b b' n, derived md t b -> conceal_except md b ids = Ret (b', Ok n) ->
    b' = MBlock (mt_method t) (mt_depth t) (mt_cofactor t)
           (flatten 0 (prestrict (mem ids) (width_of (mt_depth t)) 0 (tree_full t))) None).
  { intros b b' n D C. destruct (derived_view md t b G D) as [pt VB].
    pose proof VB as [BT [VW [Vd [Vc Vm]]]].
    pose proof (conceal_ok_known md b pt ids b' n BT C) as K.
    destruct (wf_conceal md b pt ids BT K) as [C' _]. rewrite C in C'. injection C' as -> _.
    rewrite Vd, Vc, Vm. rewrite (view_restrict (mem ids) _ 0 pt (tree_full t) VW); [reflexivity|].
    apply filter_count.
    - apply full_nodup. exact G.
    - exact (view_nodup t b pt G VB).
    - intros e I. exact (pview_leaves _ _ _ _ _ VW I).
    - intros e _ M. apply mem_In in M. rewrite <- (wf_known b pt BT). apply K. exact M. }
  rewrite (X _ _ _ D1 E1), (X _ _ _ D2 E2). reflexivity.
Qed.

(** ** C10 *)
Lemma c10_unknown : forall (H : Hasher) md b ids p
  (wf : wf_block b) (asked : In p ids) (unknown : ~ In p (known_protocol_ids b)),
  exists b' q c, conceal_except md b ids = Ret (b', Err q) /\
    In q ids /\ ~ In q (known_protocol_ids b) /\
    (forall x, In x ids -> ~ In x (known_protocol_ids b) -> x = q \/ b32_ltb q x = true) /\
    wf_block b' /\ block_commit_id md b = Ret c /\ block_commit_id md b' = Ret c.
Proof.
  intros H md b ids p [t B] I NI. rewrite (wf_known b t B) in *. pose proof B as [B1 [B2 [B3 B4]]].
  destruct (conceal_except_err md b t ids p B3 (pwf_loose_of _ _ _ B4) I NI) as [q [C [Q1 [Q2 Q3]]]].
  eexists. exists q, (pcommit (mb_depth b) (mb_cofactor b) t).
  assert (B' : block_tree (MBlock (mb_method b) (mb_depth b) (mb_cofactor b) (flatten 0 (pkeep (mem ids) t)) None) (pkeep (mem ids) t)).
  { repeat split; cbn; try assumption. apply pkeep_pwf. exact B4. }
  split; [exact C|split; [exact Q1|split; [exact Q2|split; [exact Q3|split; [eexists; exact B'|split]]]]].
  - apply wf_commit. exact B.
  - rewrite (wf_commit md _ _ B'). cbn [mb_depth mb_cofactor]. unfold pcommit. rewrite pkeep_phash. reflexivity.
Qed.
Lemma c10_exactly : forall (H : Hasher) md b ids (wf : wf_block b),
  (exists b' q, conceal_except md b ids = Ret (b', Err q)) <->
  exists p, In p ids /\ ~ In p (known_protocol_ids b).
Proof.
  intros H md b ids W. split.
  - intros [b' [q E]].
    destruct (existsb (fun p => negb (mem (known_protocol_ids b) p)) ids) eqn:X.
    + apply existsb_exists in X as [p [I M]]. exists p. split; [exact I|]. intros K. apply mem_In in K. rewrite K in M. discriminate.
    + exfalso. assert (K : forall p, In p ids -> In p (known_protocol_ids b)).
      { intros p I. destruct (mem (known_protocol_ids b) p) eqn:M; [apply mem_In; exact M|].
        assert (Y : existsb (fun p => negb (mem (known_protocol_ids b) p)) ids = true).
        { apply existsb_exists. exists p. split; [exact I|]. rewrite M. reflexivity. }
        congruence. }
      destruct (c08_conceal H md b ids W K) as [b1 [n [c [C _]]]]. congruence.
  - intros [p [I NI]]. destruct (c10_unknown H md b ids p W I NI) as [b' [q [c [C _]]]]. eauto.
Qed.
Lemma c10_proof_unknown : forall (H : Hasher) md b p (wf : wf_block b),
  ~ In p (known_protocol_ids b) -> to_merkle_proof md b p = Ret (Err p).
Proof.
  intros H md b p W NI. destruct (c10_unknown H md b [p] p W (or_introl eq_refl) NI) as [b' [q [c [C [Q _]]]]].
  destruct Q as [<-|[]]. unfold to_merkle_proof, conceal_other. rewrite C. reflexivity.
Qed.
Lemma c10_atomic_refuted : exists b ids, wf_block b /\
  forall (H : Hasher) md, exists b' q, conceal_except md b ids = Ret (b', Err q) /\
    mb_entropy b' <> mb_entropy b /\
    known_leaves (mb_cross_section b') <> known_leaves (mb_cross_section b).
Proof.
  exists (MBlock Sha256t 0 0 [CommitmentLeaf p1 m1] (Some 7%N)), [p2]. split.
  - exists (PLeaf p1 m1). unfold block_tree. cbn. repeat split; lia.
  - intros H md. eexists. eexists. split; [vm_compute; reflexivity|]. cbn. split; discriminate.
Qed.

(** ** C11 *)
Lemma filter_partition {A} (f : A -> bool) l : length (filter f l) + length (filter (fun e => negb (f e)) l) = length l.
Proof. induction l as [|a l IH]; cbn; [reflexivity|]. destruct (f a); cbn; lia. Qed.
Lemma prestrict_length {H : Hasher} f W d t : length (flatten d (prestrict f W d t)) <= length (flatten d t).
Proof.
  revert d. induction t as [h|p m|l IHl r IHr]; intros d; cbn [prestrict].
  - reflexivity.
  - destruct (f p); cbn; lia.
  - destruct (existsb _ _).
    + cbn [flatten]. rewrite !app_length. specialize (IHl (S d)). specialize (IHr (S d)). lia.
    + cbn. rewrite app_length. pose proof (flatten_nonempty (S d) l). destruct (flatten (S d) l); [congruence|cbn; lia].
Qed.
Lemma c11_count : forall (H : Hasher) md b ids b' n
  (wf : wf_block b) (done : conceal_except md b ids = Ret (b', Ok n)),
  length (mb_cross_section b') <= length (mb_cross_section b) /\
  length (known_leaves (mb_cross_section b')) <= length (known_leaves (mb_cross_section b)) /\
  n = N.of_nat ((length (known_leaves (mb_cross_section b)) - length (known_leaves (mb_cross_section b'))) +
                (length (mb_cross_section b) - length (mb_cross_section b'))).
Proof.
  intros H md b ids b' n [t B] E. pose proof (conceal_ok_known md b t ids b' n B E) as K.
  destruct (wf_conceal md b t ids B K) as [C B']. rewrite E in C. injection C as -> ->.
  rewrite (wf_leaves _ _ B'), (wf_leaves _ _ B), prestrict_leaves. cbn [mb_cross_section].
  pose proof B as [_ [_ [B3 _]]]. rewrite B3.
  pose proof (filter_partition (fun e => mem ids (fst e)) (pleaves t)) as P.
  pose proof (prestrict_length (mem ids) (width_of (mb_depth b)) 0 t) as L.
  cbv beta in P.
  set (x := length (filter (fun e : bytes32 * bytes32 => mem ids (fst e)) (pleaves t))) in *.
  set (y := length (filter (fun e : bytes32 * bytes32 => negb (mem ids (fst e))) (pleaves t))) in *.
  set (z := length (pleaves t)) in *.
  split; [exact L|split; [lia|lia]].
Qed.

(** ** C12 *)
Lemma c12_proof_block : forall (H : Hasher) md src rng t b pid msg
  (valid : valid_source src) (made : try_commit src rng = Ret (Ok t)) (from : derived md t b)
  (revealed : In (pid, msg) (known_leaves (mb_cross_section b))),
  exists pf b', to_merkle_proof md b pid = Ret (Ok pf) /\
    conceal_other md b pid = Ret (b', Ok tt) /\ block_with pf pid msg = Ret (Ok b') /\
    known_leaves (mb_cross_section b') = [(pid, msg)] /\
    length (mp_path pf) = mb_depth b /\ mp_pos pf = s_pos pid (mb_cofactor b) (mb_depth b) /\
    mp_cofactor pf = mb_cofactor b /\ mp_method pf = mb_method b.
Proof.
  intros H md src rng t b pid msg V E D I. pose proof (try_commit_good _ _ _ V E) as G.
  destruct (derived_view md t b G D) as [pt VB]. pose proof VB as [BT [VW [Vd [Vc Vm]]]].
  pose proof I as I0. rewrite (wf_leaves b pt BT) in I.
  destruct (view_proof md t b pt pid msg G VB I) as [pf [b' [P1 [P2 [P3 [P4 [P5 [P6 [P7 [P8 [P9 P10]]]]]]]]]]].
  exists pf, b'. rewrite Vd, Vc, Vm.
  split; [exact P1|split; [exact P5|split; [exact P2|split; [|auto]]]].
  destruct P3 as [BT' _]. rewrite (wf_leaves _ _ BT'), prestrict_leaves.
  pose proof (view_nodup t b pt G VB) as ND. clear -ND I.
  induction (pleaves pt) as [|[a x] l IH]; [destruct I|]. cbn in ND. inversion ND as [|? ? NI ND']; subst.
  cbn [filter fst]. destruct I as [I|I].
  - injection I as -> ->. replace (mem [pid] pid) with true by (symmetry; apply mem_In; left; reflexivity).
    f_equal. clear -NI. induction l as [|[a x] l IH]; [reflexivity|]. cbn [filter fst].
    destruct (mem [pid] a) eqn:M.
    + apply mem_In in M. destruct M as [<-|[]]. exfalso. apply NI. left. reflexivity.
    + apply IH. intros X. apply NI. right. exact X.
  - destruct (mem [pid] a) eqn:M.
    + apply mem_In in M. destruct M as [<-|[]]. exfalso. apply NI. apply in_map_iff. exists (pid, msg). auto.
    + apply IH; assumption.
Qed.

(** ** C13 *)
Lemma c13_merge : forall (H : Hasher) md b1 b2 t1 t2 c
  (wf1 : block_tree b1 t1) (wf2 : block_tree b2 t2)
  (id1 : block_commit_id md b1 = Ret c) (id2 : block_commit_id md b2 = Ret c),
  (exists b t n, merge_reveal md b1 b2 = Ret (b, Ok n) /\ block_tree b t /\ block_commit_id md b = Ret c /\
     mb_method b = mb_method b1 /\ mb_depth b = mb_depth b1 /\ mb_cofactor b = mb_cofactor b1 /\
     mb_depth b = mb_depth b2 /\ mb_cofactor b = mb_cofactor b2 /\ mb_entropy b = mb_entropy b1 /\
     StronglySorted N.lt (map fst (pleaves_at (mb_depth b) 0 0 t)) /\
     forall x, In x (pleaves_at (mb_depth b) 0 0 t) <->
       In x (pleaves_at (mb_depth b) 0 0 t1) \/ In x (pleaves_at (mb_depth b) 0 0 t2)) \/
  collision_in (pcommit_pre (mb_depth b1) (mb_cofactor b1) t1 ++ pcommit_pre (mb_depth b2) (mb_cofactor b2) t2).
Proof.
  intros H md b1 b2 t1 t2 c B1 B2 I1 I2. rewrite (wf_commit md b1 t1 B1) in I1. rewrite (wf_commit md b2 t2 B2) in I2.
  assert (E : pcommit (mb_depth b1) (mb_cofactor b1) t1 = pcommit (mb_depth b2) (mb_cofactor b2) t2) by congruence.
  destruct (merge_reveal_equal b1 b2 t1 t2 B1 B2 E) as [[ED [EC CP]]|Co]; [left|right; exact Co].
  destruct (merge_reveal_compat md b1 b2 t1 t2 B1 B2 ED EC CP) as [M BT]. cbv zeta in M, BT.
  eexists. exists (pjoin t1 t2). eexists. split; [exact M|split; [exact BT|split]].
  - rewrite (wf_commit md _ _ BT). cbn [mb_depth mb_cofactor]. unfold pcommit.
    change (2 ^ N.of_nat (mb_depth b1))%N with (width_of (mb_depth b1)). rewrite (pjoin_phash _ _ _ _ CP).
    exact I1.
  - cbn [mb_method mb_depth mb_cofactor mb_entropy]. do 3 (split; [reflexivity|]).
    split; [exact ED|split; [exact EC|split; [reflexivity|split]]].
    + apply leaves_at_sorted. destruct BT as [_ [_ [_ W]]]. exact W.
    + exact (pjoin_leaves_at _ _ _ _ _ _ CP).
Qed.

(** ** C14 *)
Lemma c14_unrelated : forall (H : Hasher) md b1 b2 c1 c2
  (id1 : block_commit_id md b1 = Ret c1) (id2 : block_commit_id md b2 = Ret c2) (different : c1 <> c2),
  merge_reveal md b1 b2 = Ret (b1, Err (UnrelatedBlocks c1 c2)).
Proof.
  intros H md b1 b2 c1 c2 I1 I2 D. unfold merge_reveal. rewrite I1, I2. cbn [bind].
  destruct (b32_eqb c1 c2) eqn:E; [apply b32_eqb_eq in E; contradiction|reflexivity].
Qed.
Lemma c14_commits : forall (H : Hasher) md b (wf : wf_block b), exists c, block_commit_id md b = Ret c.
Proof. intros H md b [t B]. eexists. apply wf_commit. exact B. Qed.
Lemma c14_bad_path : forall (H : Hasher) md b pf pid msg
  (short : length (mp_path pf) <= 31)
  (wrong : s_pos pid (mp_cofactor pf) (length (mp_path pf)) <> mp_pos pf),
  merge_reveal_path md b pf pid msg =
  Ret (b, Err (MInvalidProof (InvalidProof pid (s_pos pid (mp_cofactor pf) (length (mp_path pf))) (mp_pos pf)
                                (2 ^ N.of_nat (length (mp_path pf))))))%N.
Proof.
  intros H md b pf pid msg L W. unfold merge_reveal_path. rewrite block_with_spec by exact L. cbv zeta.
  destruct (pos_spec pid (mp_cofactor pf) _ L) as [-> _].
  apply N.eqb_neq in W. rewrite W. reflexivity.
Qed.
Lemma c14_good_path : forall (H : Hasher) md b pf pid msg
  (short : length (mp_path pf) <= 31)
  (right : s_pos pid (mp_cofactor pf) (length (mp_path pf)) = mp_pos pf),
  exists b2, block_with pf pid msg = Ret (Ok b2) /\ merge_reveal_path md b pf pid msg = merge_reveal md b b2 /\
    convolve md pf pid msg = (c <- block_commit_id md b2 ;; Ret (Ok c)).
Proof.
  intros H md b pf pid msg L W. unfold merge_reveal_path, convolve. rewrite block_with_spec by exact L. cbv zeta.
  destruct (pos_spec pid (mp_cofactor pf) _ L) as [-> _].
  apply N.eqb_eq in W. rewrite W. cbn [bind]. eexists. auto.
Qed.

(** ** C15 *)
Lemma view_merge_cross {H : Hasher} md t b1 b2 t1 t2 b r :
  good_tree t -> view_block t b1 t1 -> view_block t b2 t2 -> merge_reveal md b1 b2 = Ret (b, r) ->
  view_block t b (pjoin t1 t2) /\ mb_cross_section b = flatten 0 (pjoin t1 t2) /\ (exists n, r = Ok n).
Proof.
  intros G V1 V2 M. destruct (view_merge md t b1 b2 t1 t2 G V1 V2) as [b0 [M0 [V0 _]]].
  rewrite M in M0. injection M0 as <- ->. split; [exact V0|]. destruct V0 as [[_ [_ [E _]]] _]. split; [exact E|eauto].
Qed.
Lemma c15_semilattice : forall (H : Hasher) md src rng t a b c
  (valid : valid_source src) (made : try_commit src rng = Ret (Ok t))
  (froma : derived md t a) (fromb : derived md t b) (fromc : derived md t c),
  exists aa ab ba bc ab_c a_bc na nab nba nbc n1 n2,
    merge_reveal md a a = Ret (aa, Ok na) /\ mb_cross_section aa = mb_cross_section a /\
    merge_reveal md a b = Ret (ab, Ok nab) /\ merge_reveal md b a = Ret (ba, Ok nba) /\
    mb_cross_section ab = mb_cross_section ba /\
    merge_reveal md b c = Ret (bc, Ok nbc) /\
    merge_reveal md ab c = Ret (ab_c, Ok n1) /\ merge_reveal md a bc = Ret (a_bc, Ok n2) /\
    ab_c = a_bc /\ derived md t ab_c.
Proof.
  intros H md src rng t a b c V E Da Db Dc. pose proof (try_commit_good _ _ _ V E) as G.
  destruct (derived_view md t a G Da) as [ta Va]. destruct (derived_view md t b G Db) as [tb Vb].
  destruct (derived_view md t c G Dc) as [tc Vc].
  destruct (view_merge md t a a ta ta G Va Va) as [aa [Maa [Vaa _]]].
  destruct (view_merge md t a b ta tb G Va Vb) as [ab [Mab [Vab Eab]]].
  destruct (view_merge md t b a tb ta G Vb Va) as [ba [Mba [Vba _]]].
  destruct (view_merge md t b c tb tc G Vb Vc) as [bc [Mbc [Vbc _]]].
  destruct (view_merge md t ab c _ tc G Vab Vc) as [ab_c [M1 [V1 E1]]].
  destruct (view_merge md t a bc ta _ G Va Vbc) as [a_bc [M2 [V2 E2]]].
  assert (CS : forall x tx, view_block t x tx -> mb_cross_section x = flatten 0 tx).
  { intros x tx [[_ [_ [X _]]] _]. exact X. }
  pose proof Va as [_ [Wa _]]. pose proof Vb as [_ [Wb _]]. pose proof Vc as [_ [Wc _]].
  exists aa, ab, ba, bc, ab_c, a_bc. do 6 eexists.
  split; [exact Maa|split; [|split; [exact Mab|split; [exact Mba|split; [|split; [exact Mbc|split; [exact M1|split; [exact M2|split]]]]]]]].
  - rewrite (CS _ _ Vaa), (CS _ _ Va), pjoin_idem. reflexivity.
  - rewrite (CS _ _ Vab), (CS _ _ Vba). rewrite (pjoin_comm _ 0 _ _ (pview_compat _ _ _ _ _ Wa Wb)). reflexivity.
  - assert (X : mb_cross_section ab_c = mb_cross_section a_bc).
    { rewrite (CS _ _ V1), (CS _ _ V2), (pjoin_assoc _ 0 _ _ _ _ Wa Wb Wc). reflexivity. }
    destruct V1 as [_ [_ [D1 [C1 N1]]]]. destruct V2 as [_ [_ [D2 [C2 N2]]]].
    destruct ab_c as [x1 x2 x3 x4 x5], a_bc as [y1 y2 y3 y4 y5]. cbn in *. congruence.
  - eapply dv_merge; [|exact Dc|exact M1]. eapply dv_merge; [exact Da|exact Db|exact Mab].
Qed.
Lemma c15_collect : forall (H : Hasher) md src rng t ids ids'
  (valid : valid_source src) (made : try_commit src rng = Ret (Ok t)) (nonempty : ids <> [])
  (known : forall p, In p ids -> In p (map fst (ms_messages src))) (same : forall p, In p ids <-> In p ids'),
  exists b n, collected md t ids b /\ conceal_except md (block_of_tree t) ids' = Ret (b, Ok n) /\
    forall b', collected md t ids b' -> b' = b.
Proof.
  intros H md src rng t ids ids' V E NE K S. pose proof (try_commit_good _ _ _ V E) as G.
  pose proof (c04_placement _ _ _ V E) as [_ [_ [Ms _]]]. rewrite <- Ms in K.
  destruct (collected_exists md t ids G NE K) as [b C].
  destruct (collected_conceal md t ids ids' b G C S) as [n X]. exists b, n. split; [exact C|split; [exact X|]].
  intros b' C'. destruct (collected_conceal md t ids ids' b' G C' S) as [n' X']. congruence.
Qed.

(** ** C16 *)
Lemma span_total_eq D xs : Forall (fun n => tn_depth_or n D <= D) xs -> span_total D xs = heights_sum D xs.
Proof.
  induction 1 as [|n xs L F IH]; [reflexivity|]. cbn [span_total heights_sum].
  unfold height. apply Nat.leb_le in L. rewrite IH.
  destruct n as [d h|p m]; cbn [tn_depth_or tn_depth] in *; rewrite ?L; [reflexivity|].
  rewrite Nat.sub_diag. reflexivity.
Qed.
Lemma c16_merge_any : forall (H : Hasher) md b1 b2 b n
  (merged : merge_reveal md b1 b2 = Ret (b, Ok n)),
  exists c, block_commit_id md b1 = Ret c /\ block_commit_id md b2 = Ret c /\ block_commit_id md b = Ret c /\
    mb_method b = mb_method b1 /\ mb_depth b = mb_depth b1 /\ mb_cofactor b = mb_cofactor b1 /\
    mb_entropy b = mb_entropy b1.
Proof.
  intros H md b1 b2 b n M. apply merge_reveal_ok_any in M as [c [A1 [A2 [A3 [_ [A5 [A6 [A7 [A8 _]]]]]]]]].
  exists c. auto 10.
Qed.
Lemma c16_heights_debug : forall (H : Hasher) b1 b2 b n
  (merged : merge_reveal Debug b1 b2 = Ret (b, Ok n)),
  heights_sum (mb_depth b) (mb_cross_section b) = (2 ^ N.of_nat (mb_depth b))%N /\
  Forall (fun x => match x with ConcealedNode d _ => d <= mb_depth b | _ => True end) (mb_cross_section b).
Proof.
  intros H b1 b2 b n M. apply merge_reveal_ok_any in M as [c [_ [_ [_ [A4 _]]]]].
  apply span_sum_debug in A4 as [S F]. split.
  - rewrite <- span_total_eq by exact F. rewrite N.add_0_l in S. symmetry. exact S.
  - apply (Forall_impl _ (fun a X => X) ) in F. eapply Forall_impl; [|exact F]. intros [d h|p m]; cbn; auto.
Qed.
Lemma span_sum_release D xs acc s : D <= 31 -> Forall valid_tree_node xs -> (acc < 2 ^ 32)%N ->
  span_sum Release D xs acc = Ret s -> s = ((acc + heights_sum D xs) mod 2 ^ 32)%N.
Proof.
  intros HD F. revert acc. induction F as [|n xs V F IH]; intros acc A E.
  - cbn in E. injection E as <-. cbn. rewrite N.add_0_r, N.mod_small by exact A. reflexivity.
  - cbn [span_sum] in E. apply bind_inv in E as [h [E1 E]]. apply bind_inv in E as [p [E2 E]].
    apply bind_inv in E as [acc' [E3 E]].
    assert (P : p = height D n).
    { unfold u8_sub in E1. unfold u32_pow2 in E2. unfold height.
      destruct n as [d h0|q m]; cbn [tn_depth_or tn_depth] in E1.
      - destruct (d <=? D) eqn:L.
        + injection E1 as <-. replace (N.of_nat (D - d) <? 32)%N with true in E2 by (symmetry; apply N.ltb_lt; lia).
          congruence.
        + injection E1 as <-. cbn in V. replace (N.of_nat (D + 256 - d) <? 32)%N with false in E2 by (symmetry; apply N.ltb_ge; lia).
          congruence.
      - rewrite Nat.leb_refl in E1. injection E1 as <-. rewrite Nat.sub_diag in E2. change (Ret 1%N = Ret p) in E2. congruence. }
    subst p. assert (A' : acc' = ((acc + height D n) mod 2 ^ 32)%N).
    { unfold u32_add in E3. destruct (acc + height D n <? u32_lim)%N eqn:L.
      - apply N.ltb_lt in L. injection E3 as <-. rewrite N.mod_small; [reflexivity|exact L].
      - injection E3 as <-. reflexivity. }
    assert (B : (acc' < 2 ^ 32)%N) by (subst acc'; apply N.mod_lt; discriminate).
    specialize (IH acc' B E). subst s acc'. cbn [heights_sum].
    rewrite N.add_mod_idemp_l by discriminate. rewrite N.add_assoc. reflexivity.
Qed.
Lemma merge_take_split D target bu rest : forall stop t r', merge_take D target stop bu rest = (t, r') -> rest = t ++ r'.
Proof.
  revert bu. induction rest as [|n r IH]; intros bu stop t r' E; cbn in E.
  - injection E as <- <-. reflexivity.
  - destruct stop; [injection E as <- <-; reflexivity|].
    destruct (merge_take D target _ _ r) as [t0 r0] eqn:E0. injection E as <- <-.
    apply IH in E0. cbn. congruence.
Qed.
Lemma merge_loop_forall (P : tree_node -> Prop) D : forall fuel la lb xs,
  merge_loop fuel D la lb = Ret xs -> Forall P la -> Forall P lb -> Forall P xs.
Proof.
  induction fuel as [|fuel IH]; intros la lb xs E Fa Fb; [discriminate|]. cbn [merge_loop] in E.
  destruct la as [|n1 ra], lb as [|n2 rb].
  - injection E as <-. constructor.
  - injection E as <-. cbn. inversion Fb; assumption.
  - injection E as <-. cbn. rewrite app_nil_r. inversion Fa; assumption.
  - inversion Fa as [|? ? A1 A2]; inversion Fb as [|? ? B1 B2]; subst.
    destruct (tn_depth_or n1 D ?= tn_depth_or n2 D).
    + destruct (tree_node_eqb n1 n2).
      * apply bind_inv in E as [r [E1 E]]. injection E as <-. constructor; [assumption|]. eapply IH; eassumption.
      * destruct (tn_is_leaf n1), (tn_is_leaf n2); try discriminate.
        -- apply bind_inv in E as [r [E1 E]]. injection E as <-. constructor; [assumption|]. eapply IH; eassumption.
        -- apply bind_inv in E as [r [E1 E]]. injection E as <-. constructor; [assumption|]. eapply IH; eassumption.
        -- eapply IH; eassumption.
    + destruct (merge_take D _ false _ rb) as [t lb'] eqn:T. apply merge_take_split in T. subst rb.
      apply Forall_app in B2 as [B2 B3].
      apply bind_inv in E as [r [E1 E]]. injection E as <-. constructor; [assumption|]. apply Forall_app. split; [assumption|].
      eapply IH; eassumption.
    + destruct (merge_take D _ false _ ra) as [t la'] eqn:T. apply merge_take_split in T. subst ra.
      apply Forall_app in A2 as [A2 A3].
      apply bind_inv in E as [r [E1 E]]. injection E as <-. constructor; [assumption|]. apply Forall_app. split; [assumption|].
      eapply IH; eassumption.
Qed.
Lemma assert_lt (a b : N) u : assert (a <? b)%N = Ret u -> (a < b)%N.
Proof. unfold assert. destruct (a <? b)%N eqn:L; [|discriminate]. intros _. apply N.ltb_lt. exact L. Qed.
Lemma merge_reveal_inv {H : Hasher} md b1 b2 b n : merge_reveal md b1 b2 = Ret (b, Ok n) ->
  merge_loop (S (length (mb_cross_section b1))) (mb_depth b1) (mb_cross_section b1) (mb_cross_section b2) =
    Ret (mb_cross_section b) /\
  mb_cross_section b <> [] /\ (N.of_nat (length (mb_cross_section b)) < u32_lim)%N.
Proof.
  unfold merge_reveal. intros E. apply bind_inv in E as [r1 [E1 E]]. apply bind_inv in E as [r2 [E2 E]].
  destruct (negb (b32_eqb r1 r2)); [discriminate|].
  apply bind_inv in E as [xs [E3 E]]. rewrite E3. clear E3.
  assert (X : xs <> [] -> mb_cross_section b = xs /\ (N.of_nat (length xs) < u32_lim)%N).
  { intros NE. destruct xs as [|x0 xs0]; [congruence|].
    apply bind_inv in E as [u [E4 E]]. apply bind_inv in E as [s [_ E]]. apply bind_inv in E as [u1 [_ E]].
    apply bind_inv in E as [c [_ E]]. apply bind_inv in E as [u2 [_ E]]. apply assert_lt in E4. split; [|exact E4].
    apply (f_equal (fun o => match o with Ret (y, _) => mb_cross_section y | _ => [] end)) in E. symmetry. exact E. }
  destruct xs as [|x0 xs0]; [discriminate|]. destruct X as [-> X]; [discriminate|].
  split; [reflexivity|split; [discriminate|exact X]].
Qed.
Lemma c16_representable : forall (H : Hasher) md b1 b2 b n
  (valid1 : valid_block b1) (valid2 : valid_block b2)
  (merged : merge_reveal md b1 b2 = Ret (b, Ok n)), valid_block b.
Proof.
  intros H md b1 b2 b n V1 V2 M. pose proof (c16_merge_any H md b1 b2 b n M) as [c [_ [_ [_ [_ [A5 [A6 A7]]]]]]].
  apply merge_reveal_inv in M as [L [NE B]]. destruct V1 as [W1 [W2 [W3 [W4 W5]]]]. destruct V2 as [_ [_ [_ [X4 _]]]].
  unfold valid_block. rewrite A5, A6, A7. split; [exact W1|split; [exact W2|split; [|split; [|exact W5]]]].
  - split; [|exact B]. destruct (mb_cross_section b); [congruence|cbn; lia].
  - exact (merge_loop_forall _ _ _ _ _ _ L W4 X4).
Qed.
Lemma c16_heights_release : forall (H : Hasher) b1 b2 b n
  (valid1 : valid_block b1) (valid2 : valid_block b2)
  (merged : merge_reveal Release b1 b2 = Ret (b, Ok n)),
  (heights_sum (mb_depth b) (mb_cross_section b) mod 2 ^ 32 = 2 ^ N.of_nat (mb_depth b))%N.
Proof.
  intros H b1 b2 b n V1 V2 M. pose proof (c16_representable H Release b1 b2 b n V1 V2 M) as [W1 [_ [_ [W4 _]]]].
  apply merge_reveal_ok_any in M as [c [_ [_ [_ [A4 _]]]]].
  apply span_sum_release in A4; [|exact W1|exact W4|reflexivity]. rewrite N.add_0_l in A4. symmetry. exact A4.
Qed.
Lemma c16_heights_release_refuted : exists b, valid_block b /\
  (heights_sum (mb_depth b) (mb_cross_section b) = 2 ^ 32 + 2 ^ N.of_nat (mb_depth b))%N /\
  forall (H : Hasher), merge_reveal Release b b = Ret (b, Ok 4%N).
Proof.
  set (z := b32_fill x00).
  exists (MBlock Sha256t 31 0 [ConcealedNode 0 z; ConcealedNode 1 z; ConcealedNode 0 z; ConcealedNode 1 z] None).
  split; [|split].
  - unfold valid_block. cbn. repeat split; try lia. repeat (constructor; [cbn; lia|]). constructor.
  - vm_compute. reflexivity.
  - intros H. unfold merge_reveal.
    set (b := MBlock _ _ _ _ _).
    assert (E : block_commit_id Release b = Ret (concealed_commit_id (MConcealed 31 0 z))).
    { unfold block_commit_id. replace (block_conceal Release b) with (Ret (MConcealed 31 0 z)) by (vm_compute; reflexivity).
      reflexivity. }
    rewrite E. cbn [bind]. rewrite (proj2 (b32_eqb_eq _ _) eq_refl). cbn [negb].
    replace (merge_loop _ _ _ _) with (Ret (mb_cross_section b)) by (vm_compute; reflexivity).
    cbn [bind]. change (with_cross_section b (mb_cross_section b) (mb_entropy b)) with b.
    replace (span_sum Release (mb_depth b) (mb_cross_section b) 0) with (Ret (2 ^ 31)%N) by (vm_compute; reflexivity).
    rewrite E. cbn - [N.pow N.modulo concealed_commit_id]. rewrite (proj2 (b32_eqb_eq _ _) eq_refl). reflexivity.
Qed.

(** ** C17 *)
Lemma c17_debug_domain : forall (H : Hasher) b (valid : valid_block b),
  (exists c, block_commit_id Debug b = Ret c) <->
  exists t, mb_cross_section b = flatten 0 t /\ pwf_loose (mb_depth b) 0 t.
Proof.
  intros H b V. pose proof V as [D _]. split.
  - intros [c E]. apply (block_commit_id_debug_iff b c D) in E as [t [E1 [E2 _]]]. eauto.
  - intros [t [E1 E2]]. eexists. apply (block_commit_id_debug_iff b _ D). eauto.
Qed.
Lemma c17_value : forall (H : Hasher) md b t (valid : valid_block b)
  (frontier : mb_cross_section b = flatten 0 t) (leaves : pwf_loose (mb_depth b) 0 t),
  block_commit_id md b = Ret (pcommit (mb_depth b) (mb_cofactor b) t).
Proof. intros H md b t [D _] E W. apply block_commit_id_ok; assumption. Qed.
Lemma c17_total_refuted : exists b, valid_block b /\
  (forall (H : Hasher), exists p, block_commit_id Debug b = Panic p).
Proof.
  exists (MBlock Sha256t 1 0 [ConcealedNode 1 (b32_fill x00)] None). split.
  - unfold valid_block. cbn. repeat split; try lia. repeat (constructor; [cbn; lia|]). constructor.
  - intros H. eexists. vm_compute. reflexivity.
Qed.
Lemma c17_total_release_refuted : exists b, valid_block b /\
  (forall (H : Hasher), exists p, block_commit_id Release b = Panic p).
Proof.
  exists (MBlock Sha256t 1 0 [ConcealedNode 1 (b32_fill x00)] None). split.
  - unfold valid_block. cbn. repeat split; try lia. repeat (constructor; [cbn; lia|]). constructor.
  - intros H. eexists. vm_compute. reflexivity.
Qed.

(** ** C18 *)
Lemma c18_vouches : forall (H : Hasher) md b src rng t c
  (validb : valid_block b) (valid : valid_source src) (made : try_commit src rng = Ret (Ok t))
  (block_id : block_commit_id Debug b = Ret c) (tree_id : tree_commit_id md t = Ret c),
  (mb_depth b = mt_depth t /\ mb_cofactor b = mt_cofactor t /\
   forall p m, In (p, m) (known_leaves (mb_cross_section b)) -> In (p, m) (ms_messages src)) \/
  exists pt, mb_cross_section b = flatten 0 pt /\
    collision_in (pcommit_pre (mb_depth b) (mb_cofactor b) pt ++ tree_pre t).
Proof.
  intros H md b src rng t c [D [Co _]] V E IB IT. pose proof (try_commit_good _ _ _ V E) as G.
  pose proof (c04_placement _ _ _ V E) as [_ [_ [Ms _]]].
  apply (block_commit_id_debug_iff b c D) in IB as [pt [E1 [E2 E3]]]. rewrite (tree_commit_ok md t G) in IT.
  destruct (block_vouches b t pt G D Co E1 E2) as [[X1 [X2 X3]]|Coll].
  - congruence.
  - left. split; [exact X1|split; [exact X2|]]. intros p m I. rewrite E1, known_leaves_flatten in I.
    rewrite <- (pleaves_at_leaves (mb_depth b) 0 0 pt) in I. apply in_map_iff in I as [[q e] [EE I]]. cbn in EE. subst e.
    rewrite <- Ms. exact (proj1 (X3 q p m I)).
  - right. exists pt. split; [exact E1|exact Coll].
Qed.
Lemma c18_release_refuted : forall (H : Hasher) b c p m
  (wf : wf_block b) (id : block_commit_id Release b = Ret c),
  exists b', valid_block b' /\ block_commit_id Release b' = Ret c /\
    known_leaves (mb_cross_section b') = [(p, m)] /\
    mb_method b' = mb_method b /\ mb_depth b' = mb_depth b /\ mb_cofactor b' = mb_cofactor b.
Proof.
  intros H b c p m [t B] I. rewrite (wf_commit Release b t B) in I. injection I as <-. pose proof B as [B1 [B2 [B3 B4]]].
  destruct (release_forgery (mb_method b) (mb_depth b) (mb_cofactor b) (phash (2 ^ N.of_nat (mb_depth b)) 0 t) p m B1)
    as [b' [F1 [F2 [F3 [F4 [F5 [F6 [F7 F8]]]]]]]].
  exists b'. split; [|split; [exact F8|split; [exact F5|auto]]].
  unfold valid_block. rewrite F1, F2, F4. split; [exact B1|split; [exact B2|split; [|split; [exact F7|exact I]]]].
  split; [|lia]. destruct (mb_cross_section b'); [discriminate|cbn; lia].
Qed.

(** ** C19 *)
Lemma c19_one_message : forall (H : Hasher) md b1 b2 t1 t2 c p m m'
  (wf1 : block_tree b1 t1) (wf2 : block_tree b2 t2)
  (placed1 : well_placed (mb_depth b1) (mb_cofactor b1) t1) (placed2 : well_placed (mb_depth b2) (mb_cofactor b2) t2)
  (id1 : block_commit_id md b1 = Ret c) (id2 : block_commit_id md b2 = Ret c)
  (reveals1 : In (p, m) (known_leaves (mb_cross_section b1)))
  (reveals2 : In (p, m') (known_leaves (mb_cross_section b2))),
  m = m' \/
  collision_in (pcommit_pre (mb_depth b1) (mb_cofactor b1) t1 ++ pcommit_pre (mb_depth b2) (mb_cofactor b2) t2).
Proof.
  intros H md b1 b2 t1 t2 c p m m' B1 B2 W1 W2 I1 I2 R1 R2.
  rewrite (wf_commit md b1 t1 B1) in I1. rewrite (wf_commit md b2 t2 B2) in I2.
  assert (E : pcommit (mb_depth b1) (mb_cofactor b1) t1 = pcommit (mb_depth b2) (mb_cofactor b2) t2) by congruence.
  destruct (merge_reveal_equal b1 b2 t1 t2 B1 B2 E) as [[ED [EC CP]]|Co]; [left|right; exact Co].
  rewrite (wf_leaves _ _ B1) in R1. rewrite (wf_leaves _ _ B2) in R2.
  rewrite <- (pleaves_at_leaves (mb_depth b1) 0 0 t1) in R1. rewrite <- (pleaves_at_leaves (mb_depth b2) 0 0 t2) in R2.
  apply in_map_iff in R1 as [[q e] [X1 R1]]. apply in_map_iff in R2 as [[q' e'] [X2 R2]]. cbn in X1, X2. subst e e'.
  pose proof (W1 _ _ _ R1) as Q1. pose proof (W2 _ _ _ R2) as Q2. rewrite <- ED, <- EC in Q2. rewrite <- Q1 in Q2. subst q'.
  pose proof B1 as [_ [_ [_ P1]]]. pose proof B2 as [_ [_ [_ P2]]]. rewrite <- ED in P2, R2.
  pose proof (compat_leaves (mb_depth b1) _ 0 0 t1 t2 q (p, m) (p, m') CP P1 P2 R1 R2) as EE. congruence.
Qed.
Lemma c19_unplaced_refuted : forall (H : Hasher) md, exists b1 b2 c p m m',
  wf_block b1 /\ wf_block b2 /\ block_commit_id md b1 = Ret c /\ block_commit_id md b2 = Ret c /\
  In (p, m) (known_leaves (mb_cross_section b1)) /\ In (p, m') (known_leaves (mb_cross_section b2)) /\ m <> m'.
Proof.
  intros H md.
  set (t1 := PBr (PLeaf p1 m1) (PConc (HASH (s_leaf p1 m2)))).
  set (t2 := PBr (PConc (HASH (s_leaf p1 m1))) (PLeaf p1 m2)).
  exists (MBlock Sha256t 1 0 (flatten 0 t1) None), (MBlock Sha256t 1 0 (flatten 0 t2) None), (pcommit 1 0 t1), p1, m1, m2.
  assert (B1 : block_tree (MBlock Sha256t 1 0 (flatten 0 t1) None) t1) by (repeat split; cbn; lia).
  assert (B2 : block_tree (MBlock Sha256t 1 0 (flatten 0 t2) None) t2) by (repeat split; cbn; lia).
  split; [eexists; exact B1|split; [eexists; exact B2|split; [exact (wf_commit md _ _ B1)|split; [exact (wf_commit md _ _ B2)|]]]].
  cbn. split; [left; reflexivity|split; [left; reflexivity|]]. intros X. apply (f_equal b32) in X. discriminate X.
Qed.

(** ** C20 *)
Lemma c20_matches : forall (H : Hasher) md a b (wfa : wf_block a) (wfb : wf_block b),
  exists r, mb_matches md a b = Ret r /\ (r = true <-> block_commit_id md a = block_commit_id md b).
Proof.
  intros H md a b [ta A] [tb B]. unfold mb_matches. rewrite (wf_commit md a ta A), (wf_commit md b tb B). cbn [bind].
  eexists. split; [reflexivity|]. rewrite b32_eqb_eq. split; [congruence|]. intros E. injection E. auto.
Qed.
Lemma c20_equivalence : forall (H : Hasher) md a b c (wfa : wf_block a) (wfb : wf_block b) (wfc : wf_block c),
  mb_matches md a a = Ret true /\
  (mb_matches md a b = Ret true -> mb_matches md b a = Ret true) /\
  (mb_matches md a b = Ret true -> mb_matches md b c = Ret true -> mb_matches md a c = Ret true).
Proof.
  intros H md a b c [ta A] [tb B] [tc C]. unfold mb_matches.
  rewrite (wf_commit md a ta A), (wf_commit md b tb B), (wf_commit md c tc C). cbn [bind].
  assert (X : forall x y, Ret (b32_eqb x y) = Ret true <-> x = y).
  { intros x y. rewrite <- b32_eqb_eq. split; congruence. }
  rewrite !X. split; [reflexivity|split; congruence].
Qed.
Lemma c20_operations : forall (H : Hasher) md a b r,
  (forall (wf : wf_block a) ids, conceal_except md a ids = Ret (b, r) -> mb_matches md a b = Ret true) /\
  (forall c n, merge_reveal md a c = Ret (b, Ok n) -> mb_matches md a b = Ret true /\ mb_matches md c b = Ret true).
Proof.
  intros H md a b r. split.
  - intros W ids E. pose proof W as [t A]. destruct r as [n|q].
    + pose proof (conceal_ok_known md a t ids b n A E) as K.
      destruct (c08_conceal H md a ids W K) as [b' [n' [c [C [_ [I1 [I2 _]]]]]]]. rewrite E in C. injection C as -> _.
      unfold mb_matches. rewrite I1, I2. cbn. rewrite (proj2 (b32_eqb_eq c c) eq_refl). reflexivity.
    + destruct (proj1 (c10_exactly H md a ids W)) as [p [I NI]]; [eauto|].
      destruct (c10_unknown H md a ids p W I NI) as [b' [q' [c [C [_ [_ [_ [_ [I1 I2]]]]]]]]]. rewrite E in C. injection C as -> _.
      unfold mb_matches. rewrite I1, I2. cbn. rewrite (proj2 (b32_eqb_eq c c) eq_refl). reflexivity.
  - intros c n M. apply c16_merge_any in M as [x [X1 [X2 [X3 _]]]]. unfold mb_matches. rewrite X1, X2, X3. cbn [bind].
    rewrite (proj2 (b32_eqb_eq x x) eq_refl). auto.
Qed.
Lemma c20_trees : forall (H : Hasher) md src1 rng1 t1 src2 rng2 t2
  (valid1 : valid_source src1) (made1 : try_commit src1 rng1 = Ret (Ok t1))
  (valid2 : valid_source src2) (made2 : try_commit src2 rng2 = Ret (Ok t2)),
  (exists r, mt_matches md t1 t2 = Ret r /\ (r = true <-> tree_commit_id md t1 = tree_commit_id md t2)) /\
  mb_matches md (block_of_tree t1) (block_of_tree t2) = mt_matches md t1 t2 /\
  mt_matches md t1 t1 = Ret true.
Proof.
  intros H md src1 rng1 t1 src2 rng2 t2 V1 E1 V2 E2.
  pose proof (try_commit_good _ _ _ V1 E1) as G1. pose proof (try_commit_good _ _ _ V2 E2) as G2.
  unfold mt_matches. rewrite (tree_commit_ok md t1 G1), (tree_commit_ok md t2 G2). cbn [bind]. split; [|split].
  - eexists. split; [reflexivity|]. rewrite b32_eqb_eq. split; [congruence|]. intros E. injection E. auto.
  - unfold mb_matches. rewrite (wf_commit md _ _ (block_of_tree_wf t1 G1)), (wf_commit md _ _ (block_of_tree_wf t2 G2)). reflexivity.
  - rewrite (proj2 (b32_eqb_eq _ _) eq_refl). reflexivity.
Qed.

(** ** C21 *)
Lemma c21_decides : forall p q,
  mp_matches p q = true <-> mp_cofactor p = mp_cofactor q /\ hd_error (mp_path p) = hd_error (mp_path q).
Proof.
  intros p q. unfold mp_matches, mp_merkle_root. rewrite andb_true_iff, N.eqb_eq.
  destruct (mp_path p) as [|a x], (mp_path q) as [|b y]; cbn.
  - tauto.
  - split; [intros [_ X]; discriminate|intros [_ X]; discriminate].
  - split; [intros [_ X]; discriminate|intros [_ X]; discriminate].
  - rewrite b32_eqb_eq. split; intros [X Y]; split; auto; congruence.
Qed.
(** Two proofs of one tree that do not match (unless leaf hashes collide). *)
Lemma c21_same_tree_refuted : exists src t, valid_source src /\ try_commit src None = Ret (Ok t) /\
  forall (H : Hasher) md, exists pa pb,
    to_merkle_proof md (block_of_tree t) p1 = Ret (Ok pa) /\ to_merkle_proof md (block_of_tree t) p2 = Ret (Ok pb) /\
    (mp_matches pa pb = true -> collision_in [s_leaf p1 m1; s_leaf p2 m2]).
Proof.
  exists (MultiSource Sha256t 1 [(p1, m1); (p2, m2)] (Some 5%N)).
  exists (MTree Sha256t 1 5 0 [(p1, m1); (p2, m2)] [(0%N, (p2, m2)); (1%N, (p1, m1))]).
  split; [unfold valid_source; split; [cbn; lia|split; [vm_compute; discriminate|split; reflexivity]]|split; [vm_compute; reflexivity|]].
  intros H md. 
  set (t := MTree _ _ _ _ _ _).
  assert (G : good_tree t).
  { apply (try_commit_good (MultiSource Sha256t 1 [(p1, m1); (p2, m2)] (Some 5%N)) None).
    - unfold valid_source; split; [cbn; lia|split; [vm_compute; discriminate|split; reflexivity]].
    - vm_compute. reflexivity. }
  assert (I1 : In (p1, m1) (pleaves (tree_full t))) by (apply (tree_full_pleaves t p1 m1 G); left; reflexivity).
  assert (I2 : In (p2, m2) (pleaves (tree_full t))) by (apply (tree_full_pleaves t p2 m2 G); right; left; reflexivity).
  destruct (to_merkle_proof_ok md (block_of_tree t) (tree_full t) p1 m1 (block_of_tree_wf t G) (tree_full_placed t G) I1)
    as [path1 [L1 [R1 P1]]].
  destruct (to_merkle_proof_ok md (block_of_tree t) (tree_full t) p2 m2 (block_of_tree_wf t G) (tree_full_placed t G) I2)
    as [path2 [L2 [R2 P2]]].
  eexists. eexists. split; [exact P1|split; [exact P2|]]. intros M. apply c21_decides in M as [_ M].
  cbn [mp_path] in M. change (mb_depth (block_of_tree t)) with 1 in *.
  destruct path1 as [|h1 [|? ?]]; try discriminate L1. destruct path2 as [|h2 [|? ?]]; try discriminate L2.
  cbn in M. injection M as <-.
  replace (protocol_id_pos p1 _ _) with 1%N in R1 by (vm_compute; reflexivity).
  replace (protocol_id_pos p2 _ _) with 0%N in R2 by (vm_compute; reflexivity).
  assert (T : tree_full t = PBr (PLeaf p2 m2) (PLeaf p1 m1)) by (vm_compute; reflexivity). rewrite T in R1, R2.
  cbn - [HASH phash] in R1, R2. cbn [phash] in R1, R2.
  replace (mem [p1] p2) with false in R1 by (vm_compute; reflexivity).
  replace (mem [p1] p1) with true in R1 by (vm_compute; reflexivity).
  replace (mem [p2] p1) with false in R2 by (vm_compute; reflexivity).
  replace (mem [p2] p2) with true in R2 by (vm_compute; reflexivity).
  cbn in R1, R2. injection R1 as R1. injection R2 as R2.
  exists (s_leaf p1 m1), (s_leaf p2 m2). split; [left; reflexivity|split; [right; left; reflexivity|split]].
  - intros X. apply s_leaf_inj in X as [X _]. apply (f_equal b32) in X. discriminate X.
  - congruence.
Qed.
(** Matching proofs with different commitments (unless hashes collide). *)
Lemma c21_same_commitment_refuted : exists pa pb, valid_proof pa /\ valid_proof pb /\ mp_matches pa pb = true /\
  forall (H : Hasher) md pid msg, s_pos pid 0 2 = 0%N -> exists ca cb,
    convolve md pa pid msg = Ret (Ok ca) /\ convolve md pb pid msg = Ret (Ok cb) /\
    (ca = cb -> collision_in (proof_pre pa pid msg ++ proof_pre pb pid msg)).
Proof.
  set (z := b32_fill x00).
  exists (MProof Sha256t 0 0 [z]), (MProof Sha256t 0 0 [z; z]).
  split; [unfold valid_proof; cbn; repeat split; lia|split; [unfold valid_proof; cbn; repeat split; lia|split; [reflexivity|]]].
  intros H md pid msg P.
  assert (P1 : s_pos pid 0 1 = 0%N).
  { unfold s_pos in *. change (le_val pid mod 4 = 0)%N in P. change (le_val pid mod 2 = 0)%N.
    pose proof (N.div_mod' (le_val pid) 4) as DM. rewrite P in DM. rewrite DM.
    replace (4 * (le_val pid / 4) + 0)%N with (0 + (2 * (le_val pid / 4)) * 2)%N by lia.
    rewrite N.mod_add by discriminate. reflexivity. }
  assert (L1 : length (mp_path (MProof Sha256t 0 0 [z])) <= 31) by (cbn; lia).
  assert (L2 : length (mp_path (MProof Sha256t 0 0 [z; z])) <= 31) by (cbn; lia).
  pose proof (c03_convolve_total H md (MProof Sha256t 0 0 [z]) pid msg L1) as C1.
  pose proof (c03_convolve_total H md (MProof Sha256t 0 0 [z; z]) pid msg L2) as C2. cbv zeta in C1, C2.
  cbn [mp_path mp_cofactor mp_pos length] in C1, C2. rewrite P1 in C1. rewrite P in C2. rewrite N.eqb_refl in C1, C2.
  eexists. eexists. split; [exact C1|split; [exact C2|]]. intros E.
  apply pcommit_inj in E as [[E _]|Co]; try lia; try exact Co; try discriminate.
Qed.

(** ** C50 *)
Lemma c50_length : forall (H : Hasher) md b1 b2 b n
  (merged : merge_reveal md b1 b2 = Ret (b, Ok n)),
  n = (N.of_nat (length (mb_cross_section b)) mod 2 ^ 16)%N /\
  ((N.of_nat (length (mb_cross_section b)) < 2 ^ 16)%N -> n = N.of_nat (length (mb_cross_section b))).
Proof.
  intros H md b1 b2 b n M. apply merge_reveal_ok_any in M as [c [_ [_ [_ [_ [_ [_ [_ [_ ->]]]]]]]]].
  split; [reflexivity|]. intros L. apply N.mod_small. exact L.
Qed.
Lemma c50_length_refuted : exists b, wf_block b /\ N.of_nat (length (mb_cross_section b)) = 65536%N /\
  forall (H : Hasher) md, merge_reveal md b b = Ret (b, Ok 0%N).
Proof.
  set (t := full_tree 16 0 (fun _ => PConc (b32_fill x00))).
  assert (S : forall i, is_slot ((fun _ : N => PConc (b32_fill x00)) i)) by (intros i; exact I).
  exists (MBlock Sha256t 16 0 (flatten 0 t) None).
  assert (B : block_tree (MBlock Sha256t 16 0 (flatten 0 t) None) t).
  { split; [cbn; lia|split; [cbn; lia|split; [reflexivity|]]].
    exact (full_tree_pwf 16 0 0 _ S). }
  assert (L : N.of_nat (length (flatten 0 t)) = 65536%N).
  { unfold t. rewrite (full_tree_flatten 16 0 0 _ S), map_length, N_from_length, pow_of_nat. reflexivity. }
  split; [exists t; exact B|split; [exact L|]]. intros H md.
  destruct (merge_reveal_compat md _ _ t t B B eq_refl eq_refl) as [M _].
  - apply (pview_compat _ _ t t t); apply pview_refl.
  - cbv zeta in M. rewrite pjoin_idem in M. rewrite M. cbn [mb_method mb_depth mb_cofactor mb_entropy].
    rewrite L. reflexivity.
Qed.
