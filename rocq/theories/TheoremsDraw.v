(** Proofs extracted from any representable block. *)
From Verif Require Import Base BaseFacts OrdMap OrdMapFacts SpecHash HashFacts Merkle MpcAtoms
  MpcTree MpcBlock SpecTree SpecBlock SpecValid SpecMerkle SpecFull SpecCommit TreeFacts ConcealProofs BlockInv PrefixProofs PathProofs ExtractProofs MpcTreeProofs ModeProofs DerivedProofs
  SpecSettled TheoremsSettled SpecResting TheoremsResting SpecDraw TheoremsMpc.
From Coq Require Import Permutation.
Local Open Scope nat_scope.

Section Draw.
Context {H : Hasher}.

Definition last_from (a : option bytes32) (d : nat) (xs : list tree_node) : option bytes32 :=
  fold_left (fun acc n => match n with ConcealedNode e h => if e =? d then Some h else acc | CommitmentLeaf _ _ => acc end) xs a.

Lemma map_lasts xs : forall m, om_sorted Nat.ltb m = true ->
  exists m', path_map Release xs m = Ret m' /\ om_sorted Nat.ltb m' = true /\
    forall k, om_get Nat.ltb k m' = last_from (om_get Nat.ltb k m) k xs.
Proof.
  induction xs as [|[d h|p mm] xs IH]; intros m ST; cbn [path_map].
  - exists m. split; [reflexivity|]. split; [exact ST|]. reflexivity.
  - pose proof (om_sorted_insert Nat.ltb d h m ST) as S'.
    pose proof (om_get_insert_eq Nat.ltb d h m) as GE. pose proof (fun k => om_get_insert_neq Nat.ltb d k h m) as GN.
    destruct (om_insert Nat.ltb d h m) as [old m1]. cbn [snd] in *. cbn [debug_assert bind].
    destruct (IH m1 S') as [m' [E [S2 K2]]]. exists m'. split; [exact E|]. split; [exact S2|].
    intros k. rewrite K2. cbn [last_from fold_left]. fold (last_from (if d =? k then Some h else om_get Nat.ltb k m) k xs).
    destruct (d =? k) eqn:Q; [apply Nat.eqb_eq in Q; subst k; rewrite GE; reflexivity|].
    apply Nat.eqb_neq in Q. rewrite GN by exact Q. reflexivity.
  - destruct (IH m ST) as [m' [E [S2 K2]]]. exists m'. split; [exact E|]. split; [exact S2|]. exact K2.
Qed.
Lemma last_none d xs : forall a, Forall valid_tree_node xs -> 31 < d -> last_from a d xs = a.
Proof.
  induction xs as [|[e h|p m] xs IH]; intros a V L; [reflexivity| |]; inversion V as [|? ? V1 V2]; subst; cbn [last_from fold_left].
  - replace (e =? d) with false by (symmetry; apply Nat.eqb_neq; cbn in V1; lia). apply IH; assumption.
  - apply IH; assumption.
Qed.

Definition listed (f : nat -> option bytes32) (l : list nat) : list (nat * bytes32) :=
  flat_map (fun d => match f d with Some h => [(d, h)] | None => [] end) l.
Lemma listed_In f l d h : In (d, h) (listed f l) <-> In d l /\ f d = Some h.
Proof.
  unfold listed. rewrite in_flat_map. split.
  - intros [x [I1 I2]]. destruct (f x) as [y|] eqn:E; [|destruct I2]. destruct I2 as [Q|[]]. injection Q as <- <-. auto.
  - intros [I1 E]. exists d. rewrite E. split; [exact I1|left; reflexivity].
Qed.
Lemma listed_sorted f n : forall a, om_sorted Nat.ltb (listed f (seq a n)) = true.
Proof.
  induction n as [|n IH]; intros a; [reflexivity|]. cbn [seq]. unfold listed. cbn [flat_map]. fold (listed f (seq (S a) n)).
  destruct (f a) as [h|]; [|apply IH]. cbn [app]. apply (om_sorted_cons Nat.ltb). split; [|apply IH].
  intros k v I. apply listed_In in I as [I _]. apply in_seq in I. apply Nat.ltb_lt. lia.
Qed.
Lemma path_lasts xs m : Forall valid_tree_node xs -> path_map Release xs [] = Ret m ->
  map snd m = lasts xs /\ length m <= 32.
Proof.
  intros V E. destruct (map_lasts xs [] eq_refl) as [m' [E' [ST K]]]. rewrite E in E'. injection E' as <-.
  assert (M : m = listed (fun d => last_at d xs) (seq 0 32)).
  { apply (om_sorted_ext Nat.ltb); [exact ST|apply listed_sorted|]. intros k v. rewrite listed_In.
    rewrite <- (om_get_iff Nat.ltb k v m ST), K. cbn [om_get]. unfold last_at. fold (last_from None k xs). split.
    - intros Q. split; [|exact Q]. apply in_seq. split; [lia|]. destruct (le_lt_dec k 31) as [L|L]; [lia|].
      rewrite last_none in Q by assumption. discriminate.
    - intros [_ Q]. exact Q. }
  rewrite M. split.
  - unfold lasts, listed. generalize (seq 0 32). intros l. induction l as [|d l IH]; [reflexivity|]. cbn [flat_map].
    rewrite map_app, IH. destruct (last_at d xs); reflexivity.
  - assert (G : forall f l, length (listed f l) <= length l).
    { clear. intros f l. induction l as [|d l IH]; [cbn; lia|]. unfold listed in *. cbn [flat_map]. rewrite app_length. destruct (f d); cbn [length]; lia. }
    etransitivity; [apply G|]. rewrite seq_length. lia.
Qed.

Lemma path_debug xs : forall m m', om_sorted Nat.ltb m = true -> path_map Debug xs m = Ret m' ->
  NoDup (map fst (concs xs)) /\ (forall k, In k (map fst (concs xs)) -> ~ In k (map fst m)) /\ length m' = length m + length (concs xs).
Proof.
  induction xs as [|[d h|p mm] xs IH]; intros m m' ST E; cbn [path_map concs] in *.
  - injection E as <-. split; [constructor|]. split; [intros k []|cbn; lia].
  - pose proof (om_sorted_insert Nat.ltb d h m ST) as S'. pose proof (om_insert_old Nat.ltb d h m) as Ho.
    pose proof (om_insert_perm Nat.ltb d h m) as Hp.
    destruct (om_insert Nat.ltb d h m) as [old m1]. cbn [fst snd] in *. apply bind_inv in E as [u [A E]].
    destruct old as [x|]; [discriminate|]. symmetry in Ho. specialize (Hp Ho). apply (om_get_none Nat.ltb) in Ho; [|exact ST].
    destruct (IH _ _ S' E) as [I1 [I2 I3]]. pose proof (Permutation_map fst Hp) as HF. cbn [map fst] in *.
    apply Permutation_length in Hp. cbn [length] in Hp.
    split; [|split].
    + constructor; [|exact I1]. intros X. apply (I2 d X). eapply Permutation_in; [exact HF|]. left. reflexivity.
    + intros k [<-|X]; [exact Ho|]. intros Y. apply (I2 k X). eapply Permutation_in; [exact HF|]. right. exact Y.
    + cbn [length]. lia.
  - apply IH; assumption.
Qed.

Lemma concs_roots W F : map fst (concs (map (top W) F)) = root_depths F.
Proof. induction F as [|[d [h|p m|l r]] F IH]; cbn [map top fst snd concs root_depths]; [reflexivity|rewrite IH; reflexivity|exact IH|rewrite IH; reflexivity]. Qed.

Lemma draw_release : forall b p pf (valid : valid_block b) (known : In p (known_protocol_ids b)),
  to_merkle_proof Release b p = Ret (Ok pf) <->
  exists F, map (hide (mb_depth b) [p]) (mb_cross_section b) = frontiers F /\ resting (mb_depth b) 0 None F /\
    pf = MProof (mb_method b) (s_pos p (mb_cofactor b) (mb_depth b)) (mb_cofactor b)
           (lasts (map (top (2 ^ N.of_nat (mb_depth b))) F)).
Proof.
  intros b p pf Vb KN. assert (K : forall q, In q [p] -> In q (map fst (known_leaves (mb_cross_section b)))) by (intros q [<-|[]]; exact KN).
  pose proof Vb as [HD [_ [_ [V _]]]]. pose proof (hide_ok (mb_depth b) [p] _ HD V) as VH.
  assert (G : forall F b', map (hide (mb_depth b) [p]) (mb_cross_section b) = frontiers F -> resting (mb_depth b) 0 None F ->
    b' = MBlock (mb_method b) (mb_depth b) (mb_cofactor b) (map (top (2 ^ N.of_nat (mb_depth b))) F) None ->
    exists m, path_map Release (mb_cross_section b') [] = Ret m /\ map snd m = lasts (map (top (2 ^ N.of_nat (mb_depth b))) F) /\ length m <= 32).
  { intros F b' Q SF ->. rewrite Q in VH. pose proof (tops_ok _ F HD _ _ SF VH) as VT.
    destruct (map_lasts (map (top (2 ^ N.of_nat (mb_depth b))) F) [] eq_refl) as [m [E _]].
    exists m. split; [exact E|]. apply path_lasts; [exact VT|exact E]. }
  unfold to_merkle_proof, conceal_other. split.
  - intros E. apply bind_inv in E as [[b' r] [E0 E]]. apply bind_inv in E0 as [[b1 r1] [E0 E1]]. injection E1 as <- <-.
    destruct r1 as [n|e]; [|discriminate]. apply (release_outcome b [p] b1 n Vb K) in E0 as [F [Q [SF [Eb _]]]].
    destruct (G F b1 Q SF Eb) as [m [Em [E1 E2]]]. rewrite Em in E. cbn [bind debug_assert] in E.
    rewrite (proj2 (Nat.leb_le _ _) E2) in E. exists F. split; [exact Q|]. split; [exact SF|]. injection E as <-. rewrite E1, Eb. unfold mb_protocol_id_pos. cbn [mb_method mb_cofactor mb_depth]. rewrite (proj1 (pos_spec p (mb_cofactor b) (mb_depth b) HD)). reflexivity.
  - intros [F [Q [SF ->]]].
    set (b' := MBlock (mb_method b) (mb_depth b) (mb_cofactor b) (map (top (2 ^ N.of_nat (mb_depth b))) F) None).
    assert (C : conceal_except Release b [p] = Ret (b', Ok (N.of_nat (hidden_leaves [p] (mb_cross_section b)) + (N.of_nat (length (mb_cross_section b)) - N.of_nat (length F)))%N)).
    { apply release_outcome; [exact Vb|exact K|]. exists F. auto. }
    rewrite C. cbn [bind]. destruct (G F b' Q SF eq_refl) as [m [Em [E1 E2]]]. rewrite Em. cbn [bind debug_assert].
    rewrite (proj2 (Nat.leb_le _ _) E2), E1. unfold b', mb_protocol_id_pos. cbn [mb_method mb_cofactor mb_depth]. rewrite (proj1 (pos_spec p (mb_cofactor b) (mb_depth b) HD)). reflexivity.
Qed.

Lemma draw_debug : forall b p pf (valid : valid_block b) (known : In p (known_protocol_ids b)),
  to_merkle_proof Debug b p = Ret (Ok pf) <->
  exists F, map (hide (mb_depth b) [p]) (mb_cross_section b) = frontiers F /\ resting (mb_depth b) 0 None F /\
    Forall (fun x => fst x <= mb_depth b) F /\ (breadth (mb_depth b) F < 2 ^ 32)%N /\
    (length F = length (mb_cross_section b) \/ breadth (mb_depth b) F = 2 ^ N.of_nat (mb_depth b))%N /\
    NoDup (root_depths F) /\ length (root_depths F) = mb_depth b /\
    pf = MProof (mb_method b) (s_pos p (mb_cofactor b) (mb_depth b)) (mb_cofactor b)
           (lasts (map (top (2 ^ N.of_nat (mb_depth b))) F)).
Proof.
  intros b p pf Vb KN. assert (K : forall q, In q [p] -> In q (map fst (known_leaves (mb_cross_section b)))) by (intros q [<-|[]]; exact KN).
  pose proof (draw_release b p pf Vb KN) as RO. split.
  - intros E. pose proof (below_proof b p _ E) as R. apply RO in R as [F [Q [SF Ep]]].
    unfold to_merkle_proof, conceal_other in E. apply bind_inv in E as [[b' r] [E0 E]]. apply bind_inv in E0 as [[b1 r1] [E0 E1]]. injection E1 as <- <-.
    destruct r1 as [n|e]; [|discriminate]. apply (debug_outcome b [p] b1 n Vb K) in E0 as [F' [Q' [SF' [A1 [A2 [A3 [Eb _]]]]]]].
    rewrite (rest_unique b [p] F' F Vb Q' SF' Q SF) in *. clear Q' SF'.
    apply bind_inv in E as [m [Em E]]. apply bind_inv in E as [u [Ea _]]. rewrite Eb in Em, Ea. cbn [mb_cross_section mb_depth] in Em, Ea.
    destruct (path_debug _ [] m eq_refl Em) as [N1 [_ N2]]. cbn [length] in N2.
    rewrite concs_roots in N1. rewrite <- (map_length fst (concs _)), concs_roots in N2.
    destruct (mb_depth b =? length m) eqn:L; [|discriminate]. apply Nat.eqb_eq in L.
    exists F. split; [exact Q|]. split; [exact SF|]. split; [exact A1|]. split; [exact A2|]. split; [exact A3|].
    split; [exact N1|]. split; [cbn in N2; congruence|exact Ep].
  - intros [F [Q [SF [A1 [A2 [A3 [N1 [N2 Ep]]]]]]]].
    assert (R : to_merkle_proof Release b p = Ret (Ok pf)) by (apply RO; exists F; auto).
    set (b' := MBlock (mb_method b) (mb_depth b) (mb_cofactor b) (map (top (2 ^ N.of_nat (mb_depth b))) F) None).
    assert (C : conceal_except Debug b [p] = Ret (b', Ok (N.of_nat (hidden_leaves [p] (mb_cross_section b)) + (N.of_nat (length (mb_cross_section b)) - N.of_nat (length F)))%N)).
    { apply debug_outcome; [exact Vb|exact K|]. exists F. auto 10. }
    assert (X : exists r, to_merkle_proof Debug b p = Ret r).
    { unfold to_merkle_proof, conceal_other. rewrite C. cbn [bind].
      destruct (path_map_spec Debug (mb_cross_section b') [] eq_refl) as [m [Em [_ P]]].
      { cbn [app mb_cross_section b']. rewrite concs_roots. exact N1. }
      rewrite Em. cbn [bind]. cbn [app] in P. apply Permutation_length in P. rewrite <- (map_length fst (concs _)) in P.
      cbn [mb_cross_section b'] in P. rewrite concs_roots, N2 in P. cbn [mb_depth b']. rewrite <- P, Nat.eqb_refl. cbn [debug_assert bind].
      destruct Vb as [HD _]. replace (mb_depth b <=? 32) with true by (symmetry; apply Nat.leb_le; lia). eexists. reflexivity. }
    destruct X as [r X]. rewrite X. apply below_proof in X. rewrite R in X. injection X as <-. reflexivity.
Qed.

Lemma draw_all : forall md b ps,
  into_known_proofs md b = Ret ps <->
  map fst ps = known_protocol_ids b /\ Forall (fun x => to_merkle_proof md b (fst x) = Ret (Ok (snd x))) ps.
Proof.
  intros md b. unfold into_known_proofs. generalize (known_protocol_ids b) as ids. induction ids as [|p ids IH]; intros ps; cbn [known_proofs].
  - split.
    + intros E. injection E as <-. split; [reflexivity|constructor].
    + intros [E _]. apply map_eq_nil in E. subst. reflexivity.
  - split.
    + intros E. apply bind_inv in E as [[pf|e] [E1 E]]; [|discriminate]. apply bind_inv in E as [qs [E2 E]]. injection E as <-.
      apply IH in E2 as [I1 I2]. split; [cbn; rewrite I1; reflexivity|]. constructor; assumption.
    + intros [E F]. destruct ps as [|[q pf] ps]; [discriminate|]. cbn [map fst] in E. injection E as -> E.
      inversion F as [|? ? F1 F2]; subst. cbn [fst snd] in F1. rewrite F1. cbn [bind].
      rewrite (proj2 (IH ps) (conj eq_refl F2)). reflexivity.
Qed.

End Draw.

(** ** C123 *)
Lemma c123_release : forall (H : Hasher) b p pf (valid : valid_block b) (known : In p (known_protocol_ids b)),
  to_merkle_proof Release b p = Ret (Ok pf) <->
  exists F, map (hide (mb_depth b) [p]) (mb_cross_section b) = frontiers F /\ resting (mb_depth b) 0 None F /\
    pf = MProof (mb_method b) (s_pos p (mb_cofactor b) (mb_depth b)) (mb_cofactor b)
           (lasts (map (top (2 ^ N.of_nat (mb_depth b))) F)).
Proof. exact @draw_release. Qed.

Lemma c123_debug : forall (H : Hasher) b p pf (valid : valid_block b) (known : In p (known_protocol_ids b)),
  to_merkle_proof Debug b p = Ret (Ok pf) <->
  exists F, map (hide (mb_depth b) [p]) (mb_cross_section b) = frontiers F /\ resting (mb_depth b) 0 None F /\
    Forall (fun x => fst x <= mb_depth b) F /\ (breadth (mb_depth b) F < 2 ^ 32)%N /\
    (length F = length (mb_cross_section b) \/ breadth (mb_depth b) F = 2 ^ N.of_nat (mb_depth b))%N /\
    NoDup (root_depths F) /\ length (root_depths F) = mb_depth b /\
    pf = MProof (mb_method b) (s_pos p (mb_cofactor b) (mb_depth b)) (mb_cofactor b)
           (lasts (map (top (2 ^ N.of_nat (mb_depth b))) F)).
Proof. exact @draw_debug. Qed.

Lemma c123_all : forall (H : Hasher) md b ps,
  into_known_proofs md b = Ret ps <->
  map fst ps = known_protocol_ids b /\ Forall (fun x => to_merkle_proof md b (fst x) = Ret (Ok (snd x))) ps.
Proof. exact @draw_all. Qed.

(** Even debug builds extract proofs from blocks without a commitment, and from blocks put together from parts of other trees. *)
Lemma c123_unchecked_refuted : forall (H : Hasher) (p m h : bytes32), exists b pf c,
  valid_block b /\ known_leaves (mb_cross_section b) = [(p, m)] /\ to_merkle_proof Debug b p = Ret (Ok pf) /\
  convolve Debug pf p m = Ret (Ok c) /\ exists x, block_commit_id Debug b = Panic x.
Proof.
  intros H p m h. set (b := MBlock Sha256t 1 0 [CommitmentLeaf p m; ConcealedNode 0 h] None).
  assert (V : valid_block b).
  { split; [cbn; lia|]. split; [reflexivity|]. split; [cbn; lia|]. split; [|exact I]. repeat constructor; cbn; lia. }
  set (pf := MProof Sha256t (s_pos p 0 1) 0 [h]).
  assert (E : to_merkle_proof Debug b p = Ret (Ok pf)).
  { apply draw_debug; [exact V|left; reflexivity|]. exists [(1, PLeaf p m); (0, PConc h)].
    assert (Q : b32_eqb p p = true) by (apply b32_eqb_eq; reflexivity).
    split; [cbn; rewrite Q; reflexivity|]. split; [cbn; repeat split; intros; discriminate|].
    split; [repeat constructor|]. split; [reflexivity|]. split; [left; reflexivity|]. split; [repeat constructor; intros []|].
    split; reflexivity. }
  exists b, pf. eexists. split; [exact V|]. split; [reflexivity|]. split; [exact E|]. split.
  - rewrite c03_convolve_total by (cbn; lia). cbn [pf mp_path mp_pos mp_cofactor length]. rewrite N.eqb_refl. reflexivity.
  - eexists. reflexivity.
Qed.
