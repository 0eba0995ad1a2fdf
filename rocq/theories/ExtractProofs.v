(** Extraction of proofs from arbitrary well-formed blocks, where an id may be revealed once,
    several times, and at any position. *)
From Coq Require Import Permutation Sorting.Sorted.
From Verif Require Import Base BaseFacts OrdMap OrdMapFacts SpecHash HashFacts Merkle MpcAtoms MpcTree MpcBlock.
From Verif Require Import SpecTree SpecValid SpecCommit SpecFull TreeFacts ConcealProofs BlockInv PathProofs MpcTreeProofs.
From Verif Require Import DerivedProofs ModeProofs.
Local Open Scope nat_scope.

(** ** Counting *)
Lemma count_two {A} (f : A -> bytes32) (l : list A) x y :
  In x l -> In y l -> x <> y -> f x = f y -> 2 <= count_occ b32_eq_dec (map f l) (f x).
Proof.
  intros Ix Iy N E. apply in_split in Ix as [a [b ->]]. rewrite map_app, count_occ_app. cbn [map].
  rewrite count_occ_cons_eq by reflexivity.
  assert (G : In (f x) (map f a) \/ In (f x) (map f b)).
  { rewrite E. apply in_app_or in Iy as [Iy|[Iy|Iy]]; [left|contradiction|right]; apply in_map; exact Iy. }
  destruct G as [G|G]; apply (count_occ_In b32_eq_dec) in G; lia.
Qed.
Lemma count_filter p (l : list (bytes32 * bytes32)) :
  count_occ b32_eq_dec (map fst l) p = length (filter (fun e => b32_eqb p (fst e)) l).
Proof.
  induction l as [|[q m] l IH]; [reflexivity|]. cbn [map filter fst]. destruct (b32_eqb p q) eqn:E.
  - apply b32_eqb_eq in E. subst q. rewrite count_occ_cons_eq by reflexivity. cbn. rewrite IH. reflexivity.
  - rewrite count_occ_cons_neq; [exact IH|]. intros ->. rewrite b32_eqb_refl in E. discriminate.
Qed.

Definition sum {A} (f : A -> N) (l : list A) : N := fold_right (fun x s => f x + s)%N 0%N l.
Lemma sum_app {A} (f : A -> N) a b : sum f (a ++ b) = (sum f a + sum f b)%N.
Proof. unfold sum. induction a as [|x a IH]; cbn [app fold_right]; [reflexivity|]. rewrite IH. lia. Qed.
Lemma sum_incl {A} (f : A -> N) a b : NoDup a -> incl a b -> (sum f a <= sum f b)%N.
Proof.
  revert b. induction a as [|x a IH]; intros b N I; [cbn; lia|]. apply NoDup_cons_iff in N as [Nx N].
  destruct (in_split x b (I x (or_introl eq_refl))) as [u [v ->]].
  rewrite sum_app. cbn [sum fold_right]. fold (sum f a) (sum f v).
  specialize (IH (u ++ v) N). rewrite sum_app in IH.
  assert (IC : incl a (u ++ v)).
  { intros y Iy. specialize (I y (or_intror Iy)). apply in_app_or in I as [I|[I|I]]; [|subst; contradiction|];
      apply in_or_app; auto. }
  specialize (IH IC). lia.
Qed.
Lemma sum_powers D : sum (fun k => 2 ^ N.of_nat (D - k))%N (seq 1 D) = (2 ^ N.of_nat D - 1)%N.
Proof.
  assert (G : forall n a, a + n = S D -> sum (fun k => 2 ^ N.of_nat (D - k))%N (seq a n) = (2 ^ N.of_nat n - 1)%N).
  { induction n as [|n IH]; intros a E; [reflexivity|]. cbn [seq sum fold_right].
    fold (sum (fun k => 2 ^ N.of_nat (D - k))%N (seq (S a) n)). rewrite IH by lia.
    replace (D - a) with n by lia. rewrite Nat2N.inj_succ, N.pow_succ_r'.
    pose proof (width_of_pos n). unfold width_of in *. lia. }
  apply G. lia.
Qed.

(** Concealed nodes of a frontier: their spans and the leaves fill the tree. *)
Lemma concs_fill D d t : pwf D d t ->
  (sum (fun k => 2 ^ N.of_nat (D - k)) (map fst (concs (flatten d t))) + N.of_nat (length (pleaves t)) = 2 ^ N.of_nat (D - d))%N.
Proof.
  revert d. induction t as [h|p m|l IHl r IHr]; intros d W.
  - cbn. lia.
  - cbn in W. subst d. rewrite Nat.sub_diag. reflexivity.
  - cbn [pwf] in W. destruct W as [Wl Wr]. cbn [flatten pleaves]. rewrite concs_app, map_app, sum_app, app_length.
    specialize (IHl _ Wl). specialize (IHr _ Wr). pose proof (pwf_depth _ _ _ Wl) as L.
    replace (D - d) with (S (D - S d)) by lia. rewrite Nat2N.inj_succ, N.pow_succ_r'. lia.
Qed.
Lemma concs_range D d t k : pwf D d t -> In k (map fst (concs (flatten d t))) -> d <= k <= D.
Proof.
  revert d. induction t as [h|p m|l IHl r IHr]; intros d W HI; cbn [flatten concs map fst] in HI.
  - destruct HI as [<-|[]]. cbn in W. lia.
  - destruct HI.
  - destruct W as [Wl Wr]. rewrite concs_app, map_app in HI. apply in_app_or in HI as [HI|HI];
      [apply IHl in HI|apply IHr in HI]; try assumption; lia.
Qed.

Lemma path_map_release xs : forall m, om_sorted Nat.ltb m = true ->
  exists m', path_map Release xs m = Ret m' /\ om_sorted Nat.ltb m' = true /\
    forall k, In k (map fst m') <-> In k (map fst m) \/ In k (map fst (concs xs)).
Proof.
  induction xs as [|[d h|p mm] xs IH]; intros m S; cbn [path_map concs map fst].
  - exists m. split; [reflexivity|split; [exact S|]]. intros k. cbn. tauto.
  - pose proof (om_sorted_insert Nat.ltb d h m S) as S'.
    pose proof (fun x => om_insert_In Nat.ltb d h m x) as I.
    assert (K : forall k, In k (map fst (snd (om_insert Nat.ltb d h m))) <-> k = d \/ In k (map fst m)).
    { intros k. clear. induction m as [|[k' v'] r IH]; cbn [om_insert].
      - cbn. intuition congruence.
      - destruct (d <? k') eqn:E1; [cbn; intuition congruence|]. destruct (k' <? d) eqn:E2.
        + destruct (om_insert Nat.ltb d h r) as [o r']. cbn in *. rewrite IH. intuition congruence.
        + apply Nat.ltb_ge in E1, E2. assert (d = k') by lia. subst. cbn. intuition congruence. }
    destruct (om_insert Nat.ltb d h m) as [old m1]. cbn [snd] in *. cbn [debug_assert bind].
    destruct (IH m1 S') as [m' [E [S2 K2]]]. exists m'. split; [exact E|]. split; [exact S2|].
    intros k. rewrite K2, K. cbn. intuition congruence.
  - apply IH, S.
Qed.

(** Two leaves or more: fewer than [D] different depths. *)
Lemma several_leaves D t : pwf D 0 t -> 2 <= length (pleaves t) ->
  exists m, path_map Release (flatten 0 t) [] = Ret m /\ length m < D.
Proof.
  intros W L. destruct (path_map_release (flatten 0 t) [] eq_refl) as [m [E [S K]]]. exists m. split; [exact E|].
  pose proof (concs_fill D 0 t W) as F. rewrite Nat.sub_0_r in F.
  assert (R : forall k, In k (map fst (concs (flatten 0 t))) -> 1 <= k <= D).
  { intros k I. pose proof (concs_range _ _ _ _ W I) as R. destruct k; [|lia].
    destruct t as [h|p x|l r]; [cbn in L; lia|destruct I|]. cbn [flatten] in I. destruct W as [Wl Wr].
    rewrite concs_app, map_app in I. apply in_app_or in I as [I|I]; [apply (concs_range D) in I|apply (concs_range D) in I]; try assumption; lia. }
  assert (N : NoDup (map fst m)) by (apply (om_sorted_NoDup Nat.ltb); exact S).
  assert (I : incl (map fst m) (seq 1 D)).
  { intros k Ik. apply K in Ik as [[]|Ik]. apply R in Ik. apply in_seq. lia. }
  pose proof (NoDup_incl_length N I) as Le. rewrite map_length, seq_length in Le.
  destruct (Nat.eq_dec (length m) D) as [Eq|Ne]; [exfalso|lia].
  assert (J : incl (seq 1 D) (map fst m)).
  { apply NoDup_length_incl; [exact N|rewrite map_length, seq_length; lia|exact I]. }
  assert (J' : incl (seq 1 D) (map fst (concs (flatten 0 t)))).
  { intros k Ik. apply J, K in Ik as [[]|Ik]. exact Ik. }
  pose proof (sum_incl (fun k => 2 ^ N.of_nat (D - k))%N _ _ (seq_NoDup D 1) J') as B. rewrite sum_powers in B.
  pose proof (width_of_pos D). unfold width_of in *. lia.
Qed.

Section WithHash.
Context {H : Hasher}.

Lemma known_count b t p : block_tree b t ->
  count_occ b32_eq_dec (known_protocol_ids b) p = length (pleaves (prestrict (mem [p]) (width_of (mb_depth b)) 0 t)).
Proof.
  intros [_ [_ [E _]]]. unfold known_protocol_ids. rewrite E, known_leaves_flatten, prestrict_leaves, count_filter.
  f_equal. apply filter_ext. intros e. symmetry. apply mem_single.
Qed.

Lemma extract_once md b t p m q :
  block_tree b t -> In (q, (p, m)) (pleaves_at (mb_depth b) 0 0 t) ->
  count_occ b32_eq_dec (known_protocol_ids b) p = 1 ->
  exists path, length path = mb_depth b /\
    prestrict (mem [p]) (width_of (mb_depth b)) 0 t = path_tree path q p m /\
    to_merkle_proof md b p = Ret (Ok (MProof (mb_method b) (protocol_id_pos p (mb_cofactor b) (mb_depth b)) (mb_cofactor b) path)).
Proof.
  intros B I C. pose proof B as [HD [Hc [Hx Hw]]].
  destruct (prestrict_path (width_of (mb_depth b)) _ t 0 0 q p m Hw I) as [path [Lp Ep]].
  { intros q' m' I'. destruct (N.eq_dec q' q) as [E|N]; [exact E|exfalso].
    pose proof (count_two (fun x => fst (snd x)) _ (q, (p, m)) (q', (p, m')) I I' ltac:(congruence) eq_refl) as T.
    cbn [fst snd] in T. rewrite <- (map_map snd fst), pleaves_at_leaves in T.
    unfold known_protocol_ids in C. rewrite Hx, known_leaves_flatten in C. lia. }
  rewrite N.sub_0_r in Ep. rewrite Nat.sub_0_r in Lp.
  assert (ER : prestrict (mem [p]) (width_of (mb_depth b)) 0 t = path_tree path q p m).
  { rewrite <- Ep. apply prestrict_ext. intros p' m' _. apply mem_single. }
  exists path. split; [exact Lp|]. split; [exact ER|].
  unfold to_merkle_proof, conceal_other.
  rewrite (conceal_except_ok md b t [p] HD Hx (pwf_loose_of _ _ _ Hw)).
  2: { intros p' [<-|[]]. apply in_map_iff. exists (p, m). split; [reflexivity|].
       rewrite <- (pleaves_at_leaves (mb_depth b) 0 0 t). apply in_map_iff. exists (q, (p, m)). split; [reflexivity|exact I]. }
  cbn [bind mb_cross_section mb_method mb_cofactor mb_depth]. rewrite ER, path_map_path. cbn [bind].
  rewrite combine_snd by (rewrite seq_length; reflexivity).
  rewrite combine_length, seq_length, Nat.min_id, Lp, Nat.eqb_refl.
  replace (debug_assert md true) with (Ret tt) by (destruct md; reflexivity). cbn [bind].
  replace (mb_depth b <=? 32) with true by (symmetry; apply Nat.leb_le; lia).
  reflexivity.
Qed.

Lemma extract_several b t p :
  block_tree b t -> 2 <= count_occ b32_eq_dec (known_protocol_ids b) p ->
  (exists x, to_merkle_proof Debug b p = Panic x) /\
  exists path, length path < mb_depth b /\
    to_merkle_proof Release b p =
      Ret (Ok (MProof (mb_method b) (protocol_id_pos p (mb_cofactor b) (mb_depth b)) (mb_cofactor b) path)).
Proof.
  intros B C. pose proof B as [HD [Hc [Hx Hw]]]. pose proof C as C'. rewrite (known_count b t p B) in C'.
  destruct (several_leaves (mb_depth b) _ (prestrict_pwf _ _ _ _ _ Hw) C') as [m [E L]].
  assert (K : forall p', In p' [p] -> In p' (map fst (pleaves t))).
  { intros p' [<-|[]]. unfold known_protocol_ids in C. rewrite Hx, known_leaves_flatten in C.
    apply (count_occ_In b32_eq_dec). lia. }
  split.
  - destruct (to_merkle_proof Debug b p) as [r|x] eqn:R; [exfalso|eauto].
    revert R. unfold to_merkle_proof, conceal_other.
    rewrite (conceal_except_ok Debug b t [p] HD Hx (pwf_loose_of _ _ _ Hw) K).
    cbn [bind mb_cross_section mb_method mb_cofactor mb_depth].
    destruct (path_map Debug _ []) as [m'|] eqn:P; [|discriminate]. pose proof P as P'. apply below_path in P'.
    rewrite P' in E. injection E as ->. cbn [bind].
    replace (mb_depth b =? length m) with false by (symmetry; apply Nat.eqb_neq; lia). discriminate.
  - exists (map snd m). rewrite map_length. split; [exact L|]. unfold to_merkle_proof, conceal_other.
    rewrite (conceal_except_ok Release b t [p] HD Hx (pwf_loose_of _ _ _ Hw) K).
    cbn [bind mb_cross_section mb_method mb_cofactor mb_depth]. rewrite E. cbn [bind debug_assert].
    replace (length m <=? 32) with true by (symmetry; apply Nat.leb_le; lia). reflexivity.
Qed.
End WithHash.
