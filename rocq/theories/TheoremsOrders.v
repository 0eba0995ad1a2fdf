(** C89: derived orders. *)
From Verif Require Import Base BaseFacts OrdMap OrdMapFacts Strict Merkle MpcAtoms MpcTree MpcBlock Orders SpecOrders SpecValid.
From Coq Require Import Sorting.Sorted Sorting.Permutation.
Local Open Scope nat_scope.

Lemma then_eq c d : then_cmp c d = Eq <-> c = Eq /\ d = Eq.
Proof. destruct c; cbn; split; try discriminate; intuition discriminate. Qed.
Lemma then_lt c d : then_cmp c d = Lt <-> c = Lt \/ (c = Eq /\ d = Lt).
Proof. destruct c; cbn; split; intros; intuition discriminate. Qed.
Lemma then_gt c d : then_cmp c d = Gt <-> c = Gt \/ (c = Eq /\ d = Gt).
Proof. destruct c; cbn; split; intros; intuition discriminate. Qed.

Lemma lin_N : linear_order N.compare.
Proof.
  split; [intros; apply N.compare_eq_iff|split].
  - intros a b. rewrite N.compare_lt_iff, N.compare_gt_iff. reflexivity.
  - intros x y z. rewrite !N.compare_lt_iff. lia.
Qed.
Lemma lin_nat : linear_order Nat.compare.
Proof.
  split; [intros; apply Nat.compare_eq_iff|split].
  - intros a b. rewrite Nat.compare_lt_iff, Nat.compare_gt_iff. reflexivity.
  - intros x y z. rewrite !Nat.compare_lt_iff. lia.
Qed.
Lemma lin_byte : linear_order byte_cmp.
Proof.
  destruct lin_N as [E [O T]]. unfold byte_cmp. split; [|split].
  - intros a b. rewrite E. split; [apply byte_to_N_inj|intros ->; reflexivity].
  - intros a b. apply O.
  - intros x y z. apply T.
Qed.
Lemma lin_inj {A B} (f : A -> B) c : (forall a b, f a = f b -> a = b) -> linear_order c -> linear_order (fun a b => c (f a) (f b)).
Proof.
  intros I [E [O T]]. split; [|split].
  - intros a b. rewrite E. split; [apply I|intros ->; reflexivity].
  - intros a b. apply O.
  - intros x y z. apply T.
Qed.
Lemma lin_pair {A B} (ca : A -> A -> comparison) (cb : B -> B -> comparison) :
  linear_order ca -> linear_order cb -> linear_order (pair_cmp ca cb).
Proof.
  intros [E [O T]] [E' [O' T']]. unfold pair_cmp. split; [|split].
  - intros [a b] [a' b']. cbn. rewrite then_eq, E, E'. split; [intros [-> ->]; reflexivity|intros [= -> ->]; split; reflexivity].
  - intros [a b] [a' b']. cbn. rewrite then_lt, then_gt, O, O'. rewrite E, (E a' a). intuition.
  - intros [a b] [a' b'] [a2 b2]. cbn. rewrite !then_lt. intros [X|[X Y]] [Z|[Z W]].
    + left. exact (T _ _ _ X Z).
    + left. apply E in Z as <-. exact X.
    + left. apply E in X as ->. exact Z.
    + right. apply E in X as ->. apply E in Z as <-. split; [apply E; reflexivity|exact (T' _ _ _ Y W)].
Qed.
Lemma lin_option {A} (c : A -> A -> comparison) : linear_order c -> linear_order (option_cmp c).
Proof.
  intros [E [O T]]. split; [|split].
  - intros [a|] [b|]; cbn; try (split; discriminate); [|split; reflexivity].
    rewrite E. split; [intros ->; reflexivity|intros [= ->]; reflexivity].
  - intros [a|] [b|]; cbn; try (split; discriminate); try (split; reflexivity). apply O.
  - intros [a|] [b|] [d|]; cbn; try discriminate; try reflexivity. apply T.
Qed.
Lemma lin_list {A} (c : A -> A -> comparison) : linear_order c -> linear_order (list_cmp c).
Proof.
  intros [E [O T]]. split; [|split].
  - induction a as [|x a IH]; intros [|y b]; cbn; try (split; discriminate); [split; reflexivity|].
    rewrite then_eq, E, IH. split; [intros [-> ->]; reflexivity|intros [= -> ->]; split; reflexivity].
  - induction a as [|x a IH]; intros [|y b]; cbn; try (split; discriminate); [split; reflexivity|].
    rewrite then_lt, then_gt, O, IH, E, (E y x). intuition.
  - induction x as [|x l IH]; intros [|y m] [|z n]; cbn; try discriminate; try reflexivity.
    rewrite !then_lt. intros [X|[X Y]] [Z|[Z W]].
    + left. exact (T _ _ _ X Z).
    + left. apply E in Z as <-. exact X.
    + left. apply E in X as ->. exact Z.
    + right. apply E in X as ->. apply E in Z as <-. split; [apply E; reflexivity|exact (IH _ _ Y W)].
Qed.
Lemma lin_id : linear_order id_cmp.
Proof. apply (lin_inj b32 (list_cmp byte_cmp) b32_inj). apply lin_list, lin_byte. Qed.
Lemma lin_method : linear_order method_cmp.
Proof. split; [|split]; intros; repeat match goal with m : method |- _ => destruct m end; cbn; try (split; try discriminate; reflexivity); discriminate. Qed.

Definition proof_tuple (p : merkle_proof) := (mp_method p, (mp_pos p, (mp_cofactor p, mp_path p))).
Lemma lin_proof : linear_order proof_cmp.
Proof.
  apply (lin_inj proof_tuple (pair_cmp method_cmp (pair_cmp N.compare (pair_cmp N.compare (list_cmp id_cmp))))).
  - intros [a b c d] [a' b' c' d'] [= -> -> -> ->]. reflexivity.
  - apply lin_pair; [exact lin_method|apply lin_pair; [exact lin_N|apply lin_pair; [exact lin_N|apply lin_list, lin_id]]].
Qed.
Definition source_tuple (s : multi_source) := (ms_method s, (ms_min_depth s, (ms_messages s, ms_static_entropy s))).
Lemma lin_source : linear_order source_cmp.
Proof.
  apply (lin_inj source_tuple (pair_cmp method_cmp (pair_cmp Nat.compare (pair_cmp (list_cmp (pair_cmp id_cmp id_cmp)) (option_cmp N.compare))))).
  - intros [a b c d] [a' b' c' d'] [= -> -> -> ->]. reflexivity.
  - apply lin_pair; [exact lin_method|apply lin_pair; [exact lin_nat|apply lin_pair; [|apply lin_option, lin_N]]].
    apply lin_list, lin_pair; apply lin_id.
Qed.
Definition error_tuple (e : commit_error) : nat * nat :=
  match e with Empty => (0, 0) | TooManyMessages n => (1, n) | CantFitInMaxSlots n => (2, n) end.
Lemma lin_error : linear_order commit_error_cmp.
Proof.
  assert (X : forall a b, commit_error_cmp a b = pair_cmp Nat.compare Nat.compare (error_tuple a) (error_tuple b)) by (intros [|n|n] [|m|m]; reflexivity).
  destruct (lin_inj error_tuple (pair_cmp Nat.compare Nat.compare)) as [E [O T]].
  - intros [|n|n] [|m|m]; cbn; try discriminate; [reflexivity|intros [= ->]; reflexivity|intros [= ->]; reflexivity].
  - apply lin_pair; exact lin_nat.
  - split; [intros a b; rewrite X; apply E|split; [intros a b; rewrite !X; apply O|intros x y z; rewrite !X; apply T]].
Qed.

Lemma c89_linear : linear_order id_cmp /\ linear_order reserved_cmp /\ linear_order method_cmp /\ linear_order proof_cmp /\
  linear_order source_cmp /\ linear_order commit_error_cmp.
Proof.
  split; [exact lin_id|split; [apply lin_list, lin_byte|split; [exact lin_method|split; [exact lin_proof|split; [exact lin_source|exact lin_error]]]]].
Qed.

(** ** Ids compare as big-endian numbers *)
Lemma be_acc l : forall n, fold_left (fun n b => 256 * n + Byte.to_N b)%N l n = (n * 256 ^ N.of_nat (length l) + be_number l)%N.
Proof.
  unfold be_number. induction l as [|x l IH]; intros n; [cbn; lia|].
  cbn [fold_left length]. rewrite IH, (IH (256 * 0 + _)%N), Nat2N.inj_succ, N.pow_succ_r'. lia.
Qed.
Lemma be_cons x l : be_number (x :: l) = (Byte.to_N x * 256 ^ N.of_nat (length l) + be_number l)%N.
Proof. unfold be_number at 1. cbn [fold_left]. rewrite be_acc. f_equal. Qed.
Lemma be_bound l : (be_number l < 256 ^ N.of_nat (length l))%N.
Proof.
  induction l as [|x l IH]; [reflexivity|]. rewrite be_cons. cbn [length]. rewrite Nat2N.inj_succ, N.pow_succ_r'.
  pose proof (byte_to_N_lt x). nia.
Qed.
Lemma bytes_cmp_be a : forall b, length a = length b -> list_cmp byte_cmp a b = N.compare (be_number a) (be_number b).
Proof.
  induction a as [|x a IH]; intros [|y b] L; try discriminate; [reflexivity|]. injection L as L.
  cbn [list_cmp]. rewrite (IH b L), !be_cons, L. pose proof (be_bound a) as A. pose proof (be_bound b) as B. rewrite L in A.
  set (P := (256 ^ N.of_nat (length b))%N) in *. unfold byte_cmp.
  destruct (N.compare_spec (Byte.to_N x) (Byte.to_N y)) as [->|X|X]; cbn [then_cmp].
  - destruct (N.compare_spec (be_number a) (be_number b)); symmetry; [apply N.compare_eq_iff|apply N.compare_lt_iff|apply N.compare_gt_iff]; lia.
  - symmetry. apply N.compare_lt_iff. nia.
  - symmetry. apply N.compare_gt_iff. nia.
Qed.
Lemma c89_ids : forall a b : bytes32, id_cmp a b = N.compare (be_number a) (be_number b) /\
  (b32_ltb a b = true <-> id_cmp a b = Lt) /\ (b32_eqb a b = true <-> id_cmp a b = Eq).
Proof.
  intros a b. split; [apply bytes_cmp_be; rewrite !b32_length; reflexivity|split].
  - unfold b32_ltb, id_cmp. generalize (b32 a) (b32 b). induction l as [|x l IH]; intros [|y m]; cbn; try (split; [discriminate|]; discriminate).
    + split; reflexivity.
    + rewrite orb_true_iff, andb_true_iff, then_lt, IH, N.ltb_lt, byte_eqb_eq. unfold byte_cmp.
      rewrite N.compare_lt_iff, N.compare_eq_iff. split; (intros [X|[X Y]]; [left; exact X|right; split; [|exact Y]]).
      * rewrite X. reflexivity.
      * apply byte_to_N_inj. exact X.
  - rewrite b32_eqb_eq. symmetry. apply lin_id.
Qed.

(** ** Compound types *)
Lemma list_cmp_lex {A} (c : A -> A -> comparison) (less : A -> A -> Prop) :
  (forall a b, c a b = Eq <-> a = b) -> (forall a b, c a b = Lt <-> less a b) ->
  forall l m, list_cmp c l m = Lt <-> lex_less less l m.
Proof.
  intros E R. induction l as [|x l IH]; intros [|y m]; cbn [list_cmp].
  - split; [discriminate|]. intros [p [[<- [y [r X]]]|[x [y [l' [m' [X _]]]]]]]; [discriminate|destruct p; discriminate].
  - split; [|reflexivity]. intros _. exists []. left. split; [reflexivity|]. exists y, m. reflexivity.
  - split; [discriminate|]. intros [p [[<- [z [r X]]]|[z [y [l' [m' [_ [X _]]]]]]]]; [discriminate|destruct p; discriminate].
  - rewrite then_lt, E, R, IH. split.
    + intros [X|[<- [p [[-> [z [r ->]]]|[a [b [l' [m' [-> [-> X]]]]]]]]]].
      * exists []. right. exists x, y, l, m. repeat split. exact X.
      * exists (x :: p). left. split; [reflexivity|]. exists z, r. reflexivity.
      * exists (x :: p). right. exists a, b, l', m'. repeat split. exact X.
    + intros [[|q p] [[X [z [r Y]]]|[a [b [l' [m' [X [Y Z]]]]]]]].
      * discriminate.
      * cbn in X, Y. injection X as -> ->. injection Y as -> ->. left. exact Z.
      * cbn in Y. injection X as -> ->. injection Y as -> ->. right. split; [reflexivity|]. exists p. left. split; [reflexivity|]. exists z, r. reflexivity.
      * cbn in X, Y. injection X as -> ->. injection Y as -> ->. right. split; [reflexivity|]. exists p. right. exists a, b, l', m'. repeat split. exact Z.
Qed.
Lemma id_lt a b : id_cmp a b = Lt <-> id_less a b.
Proof. destruct (c89_ids a b) as [-> _]. apply N.compare_lt_iff. Qed.
Lemma entry_lt a b : pair_cmp id_cmp id_cmp a b = Lt <-> entry_less a b.
Proof. unfold pair_cmp, entry_less. rewrite then_lt, !id_lt, (proj1 lin_id). reflexivity. Qed.
Lemma method_eq a b : method_cmp a b = Eq.
Proof. destruct a, b. reflexivity. Qed.

Lemma c89_proofs : forall a b, proof_cmp a b = Lt <-> proof_less a b.
Proof.
  intros a b. unfold proof_cmp, proof_less. rewrite method_eq. cbn [then_cmp].
  rewrite !then_lt, !N.compare_lt_iff, !N.compare_eq_iff, (list_cmp_lex id_cmp id_less (proj1 lin_id) id_lt). reflexivity.
Qed.
Lemma c89_sources : forall a b, source_cmp a b = Lt <-> source_less a b.
Proof.
  intros a b. unfold source_cmp, source_less. rewrite method_eq. cbn [then_cmp].
  rewrite !then_lt, Nat.compare_lt_iff, Nat.compare_eq_iff.
  rewrite (list_cmp_lex (pair_cmp id_cmp id_cmp) entry_less (proj1 (lin_pair _ _ lin_id lin_id)) entry_lt).
  rewrite (proj1 (lin_list _ (lin_pair _ _ lin_id lin_id))).
  destruct (ms_static_entropy a) as [x|], (ms_static_entropy b) as [y|]; cbn [option_cmp]; try rewrite N.compare_lt_iff; intuition discriminate.
Qed.
Lemma c89_errors : forall n m,
  commit_error_cmp Empty (TooManyMessages n) = Lt /\ commit_error_cmp (TooManyMessages n) (CantFitInMaxSlots m) = Lt /\
  (commit_error_cmp (TooManyMessages n) (TooManyMessages m) = Lt <-> n < m) /\
  (commit_error_cmp (CantFitInMaxSlots n) (CantFitInMaxSlots m) = Lt <-> n < m).
Proof. intros n m. split; [reflexivity|split; [reflexivity|]]. cbn. split; apply Nat.compare_lt_iff. Qed.

(** ** Message maps *)
Lemma c89_maps : forall m : message_map,
  om_sorted b32_ltb m = true <-> StronglySorted (fun a b => id_less (fst a) (fst b)) m.
Proof.
  assert (R : forall a b : bytes32, b32_ltb a b = true <-> id_less a b).
  { intros a b. rewrite (proj1 (proj2 (c89_ids a b))). apply id_lt. }
  induction m as [|[k v] m IH]; [split; [constructor|reflexivity]|]. rewrite (om_sorted_cons b32_ltb). split.
  - intros [F S]. constructor; [apply IH; exact S|]. apply Forall_forall. intros [k' v'] X. apply R. exact (F k' v' X).
  - intros X. inversion_clear X as [|? ? S F]. split; [|apply IH; exact S]. intros k' v' Y.
    apply R. exact (proj1 (Forall_forall _ _) F _ Y).
Qed.

Lemma of_list_In l : forall k v, In (k, v) (om_of_list b32_ltb l) <-> last_entry l k v.
Proof.
  induction l as [|[k' v'] l IH] using rev_ind; intros k v.
  - split; [intros []|]. intros [l1 [l2 [X _]]]. destruct l1; discriminate.
  - pose proof (om_of_list_sorted b32_ltb l) as S. rewrite om_of_list_app.
    rewrite <- (om_get_iff b32_ltb) by (apply om_sorted_insert; [exact b32_ord|exact S]).
    destruct (b32_eq_dec k' k) as [->|N].
    + rewrite (om_get_insert_eq b32_ltb). split.
      * intros [= ->]. exists l, []. split; [reflexivity|intros []].
      * intros [l1 [l2 [X Y]]]. destruct l2 as [|z l2] using rev_ind.
        -- apply app_inj_tail in X as [_ X]. injection X as ->. reflexivity.
        -- exfalso. apply Y. rewrite app_comm_cons, app_assoc in X. apply app_inj_tail in X as [_ <-].
           rewrite map_app. apply in_or_app. right. left. reflexivity.
    + rewrite (om_get_insert_neq b32_ltb) by exact N. rewrite (om_get_iff b32_ltb) by exact S. rewrite IH. split.
      * intros [l1 [l2 [-> Y]]]. exists l1, (l2 ++ [(k', v')]). split; [rewrite <- app_assoc; reflexivity|].
        rewrite map_app. intros Z. apply in_app_or in Z as [Z|[Z|[]]]; [exact (Y Z)|exact (N Z)].
      * intros [l1 [l2 [X Y]]]. destruct l2 as [|z l2 _] using rev_ind.
        -- apply app_inj_tail in X as [_ X]. injection X as -> _. congruence.
        -- rewrite app_comm_cons, app_assoc in X. apply app_inj_tail in X as [-> <-]. exists l1, l2. split; [reflexivity|].
           intros Z. apply Y. rewrite map_app. apply in_or_app. left. exact Z.
Qed.
Lemma c89_inserted : forall l (m : message_map), m = om_of_list b32_ltb l <->
  StronglySorted (fun a b => id_less (fst a) (fst b)) m /\ (forall k v, In (k, v) m <-> last_entry l k v).
Proof.
  intros l m. split.
  - intros ->. split; [apply c89_maps, om_of_list_sorted; exact b32_ord|apply of_list_In].
  - intros [S I]. apply (om_sorted_ext b32_ltb); [apply c89_maps; exact S|apply om_of_list_sorted; exact b32_ord|].
    intros k v. rewrite I. symmetry. apply of_list_In.
Qed.
Lemma c89_order_free : forall (H : Hasher) method depth entropy rng l l'
  (same : Permutation l l') (distinct : NoDup (map fst l)),
  try_commit (MultiSource method depth (om_of_list b32_ltb l) entropy) rng =
  try_commit (MultiSource method depth (om_of_list b32_ltb l') entropy) rng.
Proof.
  intros H method depth entropy rng l l' P N. do 2 f_equal.
  apply (om_sorted_ext b32_ltb); try (apply om_of_list_sorted; exact b32_ord). intros k v.
  assert (N' : NoDup (map fst l')) by (eapply Permutation_NoDup; [apply Permutation_map; exact P|exact N]).
  pose proof (om_of_list_perm b32_ltb l N) as Q. pose proof (om_of_list_perm b32_ltb l' N') as Q'.
  split; intros X.
  - apply (Permutation_in _ Q'), (Permutation_in _ P), (Permutation_in _ (Permutation_sym Q)), X.
  - apply (Permutation_in _ Q), (Permutation_in _ (Permutation_sym P)), (Permutation_in _ (Permutation_sym Q')), X.
Qed.

(** ** What the orders do not follow *)
Lemma c89_positions_refuted : exists a b depth, depth <= 31 /\ id_less a b /\
  (protocol_id_pos b 0 depth < protocol_id_pos a 0 depth)%N.
Proof. exists (b32_of_N 15), (b32_of_N 16), 4. split; [lia|split]; vm_compute; reflexivity. Qed.
Lemma c89_encodings_refuted : exists a b, valid_proof a /\ valid_proof b /\ proof_less a b /\
  lex_less (fun x y => Byte.to_N x < Byte.to_N y)%N (enc c_merkle_proof b) (enc c_merkle_proof a).
Proof.
  exists (MProof Sha256t 1 0 []), (MProof Sha256t 256 0 []).
  split; [repeat split; try reflexivity; repeat constructor; cbn; lia|].
  split; [repeat split; try reflexivity; repeat constructor; cbn; lia|].
  split; [left; reflexivity|]. exists [x00]. right.
  exists x00, x01, [x01; x00; x00; x00; x00; x00], [x00; x00; x00; x00; x00; x00].
  split; [vm_compute; reflexivity|split; [vm_compute; reflexivity|reflexivity]].
Qed.
