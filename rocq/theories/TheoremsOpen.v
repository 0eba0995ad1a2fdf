(** C114: learning the secrets of some values does not help with the others. *)
From Verif Require Import Base BaseFacts Strict Engine SpecHash SpecCodec SpecEngine SpecMerkle SpecCount SpecGame SpecHideGame SpecIdGame SpecSalt SpecOpen.
From Verif Require Import StrictProofs EngineProofs CountProofs GameProofs GameHideProofs TheoremsMisc TheoremsGame TheoremsCount TheoremsHideGame TheoremsIdGame TheoremsSalt.
Local Open Scope nat_scope.

(** ** Inquiries as programs, when the secrets are known *)
Fixpoint p_inquiry (open : list nat) (es : list N) (p : inquiry) : prog bool :=
  match p with
  | Conclude a => Done a
  | InquireHash s k => Ask s (fun a => p_inquiry open es (k a))
  | InquireSecret i k =>
      if in_dec Nat.eq_dec i open then match nth_error es i with Some e => p_inquiry open es (k e) | None => Done false end else Done false
  end.
Lemma p_inquiry_exec H open es p : exec H (p_inquiry open es p) = true <-> concludes H open es p true.
Proof.
  induction p as [a|s k IH|i k IH]; cbn [p_inquiry exec].
  - split; [intros ->; constructor|inversion 1; reflexivity].
  - rewrite IH. split; [apply co_hash|inversion 1; assumption].
  - split.
    + destruct (in_dec Nat.eq_dec i open) as [I|]; [|discriminate]. destruct (nth_error es i) as [e|] eqn:E; [|discriminate].
      intros X. apply (co_secret H open es i e k true I E), IH, X.
    + inversion 1; subst. destruct (in_dec Nat.eq_dec i open); [|contradiction].
      match goal with X : nth_error es i = Some _ |- _ => rewrite X end. apply IH. assumption.
Qed.
Lemma p_inquiry_modest n open es p : forall q, discreet n q p -> modest n q (p_inquiry open es p).
Proof.
  induction p as [a|s k IH|i k IH]; intros q M; cbn [p_inquiry]; [exact Logic.I| |].
  - cbn in M. destruct q as [|q]; [destruct M|]. cbn. split; [apply M|]. intros a. apply IH, M.
  - cbn in M. destruct (in_dec Nat.eq_dec i open); [|exact Logic.I]. destruct (nth_error es i); [|exact Logic.I]. apply IH, M.
Qed.
Lemma p_inquiry_same H open es es' p : (forall i, In i open -> nth_error es i = nth_error es' i) ->
  exec H (p_inquiry open es p) = exec H (p_inquiry open es' p).
Proof.
  intros S. induction p as [a|s k IH|i k IH]; cbn [p_inquiry exec]; [reflexivity|apply IH|].
  destruct (in_dec Nat.eq_dec i open) as [I|]; [|reflexivity]. rewrite <- (S i I). destruct (nth_error es i); [apply IH|reflexivity].
Qed.

(** The ids of values whose secrets are known *)
Fixpoint p_known (ds : list tag_bytes) (es : list N) : prog (list bytes32) :=
  match ds, es with
  | d :: ds', e :: es' => andthen (p_val d e) (fun id => andthen (p_known ds' es') (fun ids => Done (id :: ids)))
  | _, _ => Done []
  end.
Lemma p_known_exec U f ds : forall es, exec (table U f) (p_known ds es) = ids_list U f ds es.
Proof.
  induction ds as [|d ds IH]; intros [|e es]; try reflexivity. cbn [p_known ids_list]. rewrite !exec_andthen, IH. reflexivity.
Qed.
Lemma p_known_modest n Es ds : Forall (good_secret n Es) ds -> forall es, Forall (fun e => In e Es) es -> modest n (2 * length ds) (p_known ds es).
Proof.
  induction 1 as [|d ds G Gs IH]; intros es F; [exact Logic.I|]. destruct F as [|e es I F]; [exact Logic.I|].
  cbn [p_known length]. replace (2 * Datatypes.S (length ds)) with (2 + (2 * length ds + 0)) by lia.
  apply modest_andthen; [apply (p_val_modest n Es); assumption|]. intros id. apply modest_andthen; [apply IH, F|intros ids; exact Logic.I].
Qed.
Lemma ids_list_app U f ds1 d ds2 e l2 : forall l1, length l1 = length ds1 ->
  ids_list U f (ds1 ++ d :: ds2) (l1 ++ e :: l2) = ids_list U f ds1 l1 ++ table U f (pre_of U d e f) :: ids_list U f ds2 l2.
Proof.
  induction ds1 as [|d1 ds1 IH]; intros [|e1 l1] L; try discriminate; [reflexivity|]. cbn [app ids_list]. f_equal. apply IH. cbn in L. lia.
Qed.

(** Sums over sequences, divided at a place *)
Lemma tuples_next {A} (E : list A) k g : sum g (tuples E (Datatypes.S k)) = sum (fun l => sum (fun x => g (x :: l)) E) (tuples E k).
Proof.
  cbn [tuples]. induction (tuples E k) as [|l L IH]; [reflexivity|]. cbn [flat_map]. rewrite sum_app, IH, sum_map. reflexivity.
Qed.
Lemma tuples_sum_app {A} (E : list A) a b : forall g, sum g (tuples E (a + b)) = sum (fun l1 => sum (fun l2 => g (l1 ++ l2)) (tuples E b)) (tuples E a).
Proof.
  induction a as [|a IH]; intros g.
  - cbn [Nat.add tuples]. unfold sum at 2. cbn [fold_right app]. rewrite N.add_0_r. apply sum_ext. reflexivity.
  - change (Datatypes.S a + b) with (Datatypes.S (a + b)). rewrite !tuples_next, IH. apply sum_ext. intros l1 _. rewrite sum_swap.
    apply sum_ext. reflexivity.
Qed.

Section OnePlace.
Context (n : nat) (U : list (list byte)) (UU : universe n U) (Fs : list (list bytes32)) (Cs : list bytes32) (Es : list N).
Hypothesis LF : lists_all Fs (fun f => length f = length U).
Hypothesis NC : NoDup Cs.
Hypothesis IC : forall c, In c Cs.
Hypothesis NE : NoDup Es.
Context (q : nat) (open : list nat) (A : list bytes32 -> inquiry).
Hypothesis few : forall cs, discreet n q (A cs).

Definition open_sum (ds : list tag_bytes) : N :=
  sum (fun es => sum (fun f => ind (exec (table U f) (p_inquiry open es (A (ids_list U f ds es))))) Fs) (tuples Es (length ds)).
(** The adversary with the secrets of all values but one *)
Definition p_rest (ds1 ds2 : list tag_bytes) (l1 l2 : list N) (c : bytes32) : prog bool :=
  andthen (p_known ds1 l1) (fun i1 => andthen (p_known ds2 l2) (fun i2 => p_inquiry open (l1 ++ 0%N :: l2) (A (i1 ++ c :: i2)))).
Lemma open_sum_at ds1 d ds2 : ~ In (length ds1) open -> open_sum (ds1 ++ d :: ds2) =
  sum (fun l1 => sum (fun l2 => sum (fun e => sum (fun f => ind (exec (table U f) (p_rest ds1 ds2 l1 l2 (table U f (pre_of U d e f))))) Fs) Es)
    (tuples Es (length ds2))) (tuples Es (length ds1)).
Proof.
  intros NI. unfold open_sum. rewrite app_length. cbn [length]. rewrite tuples_sum_app. apply sum_ext. intros l1 I1.
  apply tuples_among in I1 as [L1 _]. rewrite tuples_next. apply sum_ext. intros l2 _. apply sum_ext. intros e _. apply sum_ext. intros f _.
  f_equal. unfold p_rest. rewrite !exec_andthen, !p_known_exec, (ids_list_app U f ds1 d ds2 e l2 l1 L1).
  apply p_inquiry_same. intros i I. destruct (Nat.lt_ge_cases i (length l1)) as [L|L].
  - rewrite !nth_error_app1 by exact L. reflexivity.
  - rewrite !nth_error_app2 by exact L. destruct (i - length l1) as [|k] eqn:E; [|reflexivity].
    exfalso. apply NI. replace (length ds1) with i by lia. exact I.
Qed.
Lemma one_place ds1 d d' ds2 : (0 < length Cs) -> ~ In (length ds1) open -> good_secret n Es d -> good_secret n Es d' ->
  Forall (good_secret n Es) ds1 -> Forall (good_secret n Es) ds2 ->
  (open_sum (ds1 ++ d :: ds2) <= open_sum (ds1 ++ d' :: ds2) +
     2 * (N.of_nat q + 2 * N.of_nat (length ds1 + length ds2)) * N.of_nat (length Es) ^ N.of_nat (length ds1 + length ds2) * N.of_nat (length Fs))%N.
Proof.
  intros K NI G G' G1 G2. rewrite !open_sum_at by exact NI. set (qq := (N.of_nat q + 2 * N.of_nat (length ds1 + length ds2))%N).
  rewrite Nat2N.inj_add, N.pow_add_r, <- !tuples_length.
  replace (2 * qq * (N.of_nat (length (tuples Es (length ds1))) * N.of_nat (length (tuples Es (length ds2)))) * N.of_nat (length Fs))%N
    with (N.of_nat (length (tuples Es (length ds1))) * (N.of_nat (length (tuples Es (length ds2))) * (2 * qq * N.of_nat (length Fs))))%N
    by (set (a := length (tuples Es (length ds1))); set (b := length (tuples Es (length ds2))); lia).
  rewrite <- sum_same, <- sum_add. apply sum_le. intros l1 I1. rewrite <- sum_same, <- sum_add. apply sum_le. intros l2 I2.
  apply tuples_among in I1 as [L1 F1], I2 as [L2 F2].
  assert (M : forall c, modest n (2 * length ds1 + (2 * length ds2 + q)) (p_rest ds1 ds2 l1 l2 c)).
  { intros c. apply modest_andthen; [apply (p_known_modest n Es); assumption|]. intros i1.
    apply modest_andthen; [apply (p_known_modest n Es); assumption|]. intros i2. apply p_inquiry_modest, few. }
  pose proof (one_value n U UU Fs Cs Es LF NC IC NE d _ (p_rest ds1 ds2 l1 l2) G M) as [X _].
  pose proof (one_value n U UU Fs Cs Es LF NC IC NE d' _ (p_rest ds1 ds2 l1 l2) G' M) as [_ Y].
  replace (N.of_nat (2 * length ds1 + (2 * length ds2 + q))) with qq in X, Y by (unfold qq; lia).
  apply (N.mul_le_mono_pos_r _ _ (N.of_nat (length Cs))); [lia|].
  set (a := sum _ Es) in X |- *. set (b := sum (fun e => sum (fun f => ind (exec (table U f) (p_rest ds1 ds2 l1 l2 (table U f (pre_of U d' e f))))) Fs) Es) in Y |- *.
  set (m := sum (fun f => sum _ Cs) Fs) in X, Y. set (k := N.of_nat (length Cs)) in *. clearbody a b m k. lia.
Qed.
End OnePlace.

Section Hybrid.
Context (n : nat) (U : list (list byte)) (UU : universe n U) (Fs : list (list bytes32)) (Cs : list bytes32) (Es : list N).
Hypothesis LF : lists_all Fs (fun f => length f = length U).
Hypothesis NC : NoDup Cs.
Hypothesis IC : forall c, In c Cs.
Hypothesis NE : NoDup Es.
Context (q : nat) (open : list nat) (A : list bytes32 -> inquiry).
Hypothesis few : forall cs, discreet n q (A cs).
Hypothesis some : 0 < length Cs.
Definition closed_in (from len : nat) : list nat := filter (fun i => if in_dec Nat.eq_dec i open then false else true) (seq from len).
Definition step_error (r : nat) : N := (2 * (N.of_nat q + 2 * N.of_nat r) * N.of_nat (length Es) ^ N.of_nat r * N.of_nat (length Fs))%N.
Lemma hybrid r : forall ds ds' pre, length ds = length ds' -> length pre + length ds = Datatypes.S r ->
  (forall i, In (length pre + i) open -> nth_error ds i = nth_error ds' i) ->
  Forall (good_secret n Es) pre -> Forall (good_secret n Es) ds -> Forall (good_secret n Es) ds' ->
  (open_sum U Fs Es open A (pre ++ ds) <= open_sum U Fs Es open A (pre ++ ds') + N.of_nat (length (closed_in (length pre) (length ds))) * step_error r)%N.
Proof.
  induction ds as [|d ds IH]; intros [|d' ds'] pre L R S Gp G G'; try discriminate; [lia|].
  inversion G; subst. inversion G'; subst. injection L as L.
  assert (TAIL : (open_sum U Fs Es open A ((pre ++ [d']) ++ ds) <= open_sum U Fs Es open A ((pre ++ [d']) ++ ds') +
                 N.of_nat (length (closed_in (length (pre ++ [d'])) (length ds))) * step_error r)%N).
  { apply IH; [exact L|rewrite app_length; cbn [length] in *; lia| | |assumption|assumption].
    - intros i I. rewrite app_length in I. cbn [length] in I. specialize (S (Datatypes.S i)). cbn [nth_error] in S. apply S.
      replace (length pre + Datatypes.S i) with (length pre + 1 + i) by lia. exact I.
    - apply Forall_app. split; [exact Gp|constructor; [assumption|constructor]]. }
  rewrite <- !app_assoc in TAIL. cbn [app] in TAIL. rewrite app_length in TAIL. cbn [length] in TAIL. rewrite Nat.add_1_r in TAIL.
  unfold closed_in in *. cbn [length seq filter]. destruct (in_dec Nat.eq_dec (length pre) open) as [I|NI].
  - specialize (S 0). rewrite Nat.add_0_r in S. specialize (S I). injection S as <-. exact TAIL.
  - pose proof (one_place n U UU Fs Cs Es LF NC IC NE q open A few pre d d' ds some NI ltac:(assumption) ltac:(assumption) Gp ltac:(assumption)) as X.
    replace (length pre + length ds) with r in X by (cbn [length] in R; lia). fold (step_error r) in X.
    cbn [length]. rewrite Nat2N.inj_succ, N.mul_succ_l. set (z := filter _ _) in *. lia.
Qed.
End Hybrid.

Lemma tag_bytes_both n md S open : forall vs ws k, Forall (salted n md S) vs -> Forall (salted n md S) ws -> length vs = length ws ->
  (forall i, In (k + i) open -> nth_error vs i = nth_error ws i) ->
  exists ds ds', Forall2 (described_by n md S) vs ds /\ Forall2 (described_by n md S) ws ds' /\
    forall i, In (k + i) open -> nth_error ds i = nth_error ds' i.
Proof.
  induction vs as [|v vs IH]; intros [|w ws] k V W L E; try discriminate.
  - exists [], []. split; [constructor|split; [constructor|reflexivity]].
  - inversion V as [|? ? (t1 & b1 & D1) V']; subst. inversion W as [|? ? (t2 & b2 & D2) W']; subst. injection L as L.
    destruct (IH ws (Datatypes.S k) V' W' L) as (ds & ds' & F1 & F2 & SD).
    { intros i I. specialize (E (Datatypes.S i)). cbn [nth_error] in E. apply E. replace (k + Datatypes.S i) with (Datatypes.S k + i) by lia. exact I. }
    assert (NX : forall d d' i, In (k + Datatypes.S i) open -> nth_error (d :: ds) (Datatypes.S i) = nth_error (d' :: ds') (Datatypes.S i)).
    { intros d d' i I. cbn [nth_error]. apply SD. replace (Datatypes.S k + i) with (k + Datatypes.S i) by lia. exact I. }
    destruct (in_dec Nat.eq_dec k open) as [I|NI].
    + pose proof (E 0) as E0. rewrite Nat.add_0_r in E0. specialize (E0 I). injection E0 as <-.
      exists ((t1, b1) :: ds), ((t1, b1) :: ds'). split; [constructor; assumption|split; [constructor; assumption|]].
      intros [|i] J; [reflexivity|apply NX, J].
    + exists ((t1, b1) :: ds), ((t2, b2) :: ds'). split; [constructor; assumption|split; [constructor; assumption|]].
      intros [|i] J; [|apply NX, J]. rewrite Nat.add_0_r in J. contradiction.
Qed.

Section OpenCounts.
Context (U : list (list byte)) (Fs : list (list bytes32)) (LF : lists_all Fs (fun f => length f = length U)).
Lemma guesses_open_iff n md S Es open vs ds A : (forall e, In e Es <-> (e < S)%N) -> Forall2 (described_by n md S) vs ds ->
  forall ef, guesses_open U md S open vs A ef <->
    In ef (list_prod (tuples Es (length ds)) Fs) /\ exec (table U (snd ef)) (p_inquiry open (fst ef) (A (ids_list U (snd ef) ds (fst ef)))) = true.
Proof.
  intros IE D [es f]. cbn [fst snd]. unfold guesses_open. rewrite in_prod_iff, tuples_among, (proj2 LF f), p_inquiry_exec.
  assert (FE : Forall (fun e => (e < S)%N) es <-> Forall (fun e => In e Es) es) by (split; apply Forall_impl; intros e; apply IE).
  split.
  - intros (L & B & ids & I & X). apply (described_ids n md S U f vs ds D) in I as [Le ->]; [|exact B]. tauto.
  - intros (((Le & B) & L) & X). apply FE in B. split; [exact L|split; [exact B|]]. eexists. split; [|exact X].
    apply (described_ids n md S U f vs ds D es _ B). split; [exact Le|reflexivity].
Qed.
Lemma open_count n md S Es open vs ds A k : NoDup Es -> (forall e, In e Es <-> (e < S)%N) -> Forall2 (described_by n md S) vs ds ->
  counts (guesses_open U md S open vs A) k -> k = open_sum U Fs Es open A ds.
Proof.
  intros NE IE D C. unfold open_sum.
  rewrite (counts_ind _ _ (list_prod (tuples Es (length ds)) Fs) k (NoDup_prod _ _ (tuples_NoDup Es _ NE) (proj1 LF)) (guesses_open_iff n md S Es open vs ds A IE D) C).
  apply sum_prod.
Qed.
Lemma open_count_exist n md S Es open vs ds A : NoDup Es -> (forall e, In e Es <-> (e < S)%N) -> Forall2 (described_by n md S) vs ds ->
  counts (guesses_open U md S open vs A) (open_sum U Fs Es open A ds).
Proof.
  intros NE IE D. unfold open_sum.
  rewrite <- (sum_prod (fun x => ind (exec (table U (snd x)) (p_inquiry open (fst x) (A (ids_list U (snd x) ds (fst x))))))).
  apply counts_exist; [apply NoDup_prod; [apply tuples_NoDup, NE|apply LF]|]. apply (guesses_open_iff n md S Es open vs ds A IE D).
Qed.
End OpenCounts.

Lemma c114_hiding : forall n U q md S open closed (A : list bytes32 -> inquiry) vs ws r k1 k2 (strings : universe n U) (few : forall cs, discreet n q (A cs))
  (hidden1 : Forall (salted n md S) vs) (hidden2 : Forall (salted n md S) ws)
  (many1 : N.of_nat (length vs) = r) (many2 : N.of_nat (length ws) = r)
  (same : forall i, In i open -> nth_error vs i = nth_error ws i) (places : forall i, i < length vs -> In i open \/ In i closed)
  (yes1 : counts (guesses_open U md S open vs A) k1) (yes2 : counts (guesses_open U md S open ws A) k2),
  (k1 <= k2 + 2 * N.of_nat (length closed) * (N.of_nat q + 2 * (r - 1)) * S ^ (r - 1) * 2 ^ (256 * N.of_nat (length U)))%N.
Proof.
  intros n U q md S open closed A vs ws r k1 k2 UU F V W E1 E2 SA PL R1 R2.
  destruct (below S) as (Es & NE & IE & LE). destruct (c86_all (length U)) as (Fs & LF & NF). destruct all_ids as (Cs & NC & IC & LC).
  destruct (tag_bytes_both n md S open vs ws 0 V W ltac:(lia) SA) as (ds & ds' & D & D' & SD).
  rewrite (open_count U Fs LF n md S Es open vs ds A k1 NE IE D R1), (open_count U Fs LF n md S Es open ws ds' A k2 NE IE D' R2).
  pose proof (described_length _ _ _ _ _ D) as LD. pose proof (described_length _ _ _ _ _ D') as LD'.
  assert (GD : forall vs ds, Forall2 (described_by n md S) vs ds -> Forall (good_secret n Es) ds).
  { intros xs ys X. induction X as [|v d xs ys Dv Ds IH]; constructor; [apply (described_good n md S Es v d IE Dv)|exact IH]. }
  destruct ds as [|d ds].
  { destruct ds'; [apply N.le_add_r|cbn in *; lia]. }
  assert (C0 : 0 < length Cs) by (assert (0 < 2 ^ 256)%N by reflexivity; lia).
  pose proof (hybrid n U UU Fs Cs Es LF NC IC NE q open A F C0 (length ds) (d :: ds) ds' [] ltac:(lia) eq_refl SD ltac:(constructor) (GD _ _ D) (GD _ _ D')) as X.
  cbn [app] in X. etransitivity; [exact X|]. apply N.add_le_mono_l.
  assert (CL : length (closed_in open (length (@nil tag_bytes)) (length (d :: ds))) <= length closed).
  { apply NoDup_incl_length; [apply NoDup_filter, seq_NoDup|]. intros i I. apply filter_In in I as [I J]. apply in_seq in I.
    destruct (in_dec Nat.eq_dec i open); [discriminate|]. destruct (PL i ltac:(cbn [length] in *; lia)); [contradiction|assumption]. }
  set (c := length (closed_in _ _ _)) in *. unfold step_error. rewrite LE, NF.
  replace (N.of_nat (length ds)) with (r - 1)%N by (cbn [length] in *; lia).
  set (z := ((N.of_nat q + 2 * (r - 1)) * S ^ (r - 1) * 2 ^ (256 * N.of_nat (length U)))%N).
  replace (N.of_nat c * (2 * (N.of_nat q + 2 * (r - 1)) * S ^ (r - 1) * 2 ^ (256 * N.of_nat (length U))))%N with (N.of_nat c * (2 * z))%N by (unfold z; lia).
  replace (2 * N.of_nat (length closed) * (N.of_nat q + 2 * (r - 1)) * S ^ (r - 1) * 2 ^ (256 * N.of_nat (length U)))%N with (N.of_nat (length closed) * (2 * z))%N by (unfold z; lia).
  apply N.mul_le_mono_r. lia.
Qed.

Lemma c114_meaning : forall n U md S open (A : list bytes32 -> inquiry) vs (strings : universe n U) (hidden : Forall (salted n md S) vs),
  (exists k, counts (guesses_open U md S open vs A) k) /\
  counts (guesses_open U md S open vs (fun _ => Conclude true)) (S ^ N.of_nat (length vs) * 2 ^ (256 * N.of_nat (length U))).
Proof.
  intros n U md S open A vs UU V. destruct (below S) as (Es & NE & IE & LE). destruct (c86_all (length U)) as (Fs & LF & NF).
  destruct (described_all n md S vs V) as [ds D]. split.
  - eexists. apply (open_count_exist U Fs LF n md S Es open vs ds A NE IE D).
  - pose proof (open_count_exist U Fs LF n md S Es open vs ds (fun _ => Conclude true) NE IE D) as C. unfold open_sum in C. cbn [p_inquiry exec ind] in C.
    rewrite sum_same, sum_same, tuples_length, LE, NF, <- (described_length _ _ _ _ _ D), N.mul_1_r in C. exact C.
Qed.

Lemma c114_numbers : forall n U q md open (A : list bytes32 -> inquiry) vs ws k1 k2 all (strings : universe n U) (few : forall cs, discreet n q (A cs))
  (work : (N.of_nat q <= 2 ^ 100)%N) (hidden1 : Forall (salted n md (2 ^ 256)) vs) (hidden2 : Forall (salted n md (2 ^ 256)) ws)
  (same_length : length vs = length ws) (many : (N.of_nat (length vs) <= 2 ^ 20)%N)
  (same : forall i, In i open -> nth_error vs i = nth_error ws i)
  (yes1 : counts (guesses_open U md (2 ^ 256) open vs A) k1) (yes2 : counts (guesses_open U md (2 ^ 256) open ws A) k2)
  (total : counts (guesses_open U md (2 ^ 256) open vs (fun _ => Conclude true)) all),
  (k1 * 2 ^ 134 <= k2 * 2 ^ 134 + all)%N.
Proof.
  intros n U q md open A vs ws k1 k2 all UU F Q V W E M SA R1 R2 T.
  pose proof (c114_hiding n U q md (2 ^ 256) open (seq 0 (length vs)) A vs ws (N.of_nat (length vs)) k1 k2 UU F V W eq_refl ltac:(congruence) SA
    ltac:(intros i L; right; apply in_seq; lia) R1 R2) as X. rewrite seq_length in X.
  destruct (below (2 ^ 256)) as (Es & NE & IE & LE). destruct (c86_all (length U)) as (Fs & LF & NF).
  destruct (described_all n md (2 ^ 256) vs V) as [ds D].
  rewrite (open_count U Fs LF n md (2 ^ 256) Es open vs ds _ all NE IE D T). unfold open_sum. cbn [p_inquiry exec ind]. rewrite sum_same, sum_same, tuples_length, LE, NF.
  rewrite <- (described_length _ _ _ _ _ D). set (r := N.of_nat (length vs)) in *. set (f := (2 ^ (256 * N.of_nat (length U)))%N) in *.
  destruct (N.eq_dec r 0) as [Z|Z]; [rewrite Z in *; lia|].
  replace ((2 ^ 256) ^ r)%N with (2 ^ 256 * (2 ^ 256) ^ (r - 1))%N by (rewrite <- N.pow_succ_r'; f_equal; lia).
  set (y := ((2 ^ 256) ^ (r - 1))%N) in *. assert (B : (2 * r * (N.of_nat q + 2 * (r - 1)) * 2 ^ 134 <= 2 ^ 256)%N).
  { assert (B1 : (N.of_nat q + 2 * (r - 1) <= 2 ^ 101)%N) by lia.
    transitivity (2 * 2 ^ 20 * 2 ^ 101 * 2 ^ 134)%N; [|vm_compute; discriminate].
    apply N.mul_le_mono_r, N.mul_le_mono; [lia|exact B1]. }
  clearbody y f. apply (N.mul_le_mono_r _ _ (2 ^ 134)) in X. rewrite N.mul_add_distr_r in X.
  apply (N.mul_le_mono_r _ _ (y * f)) in B. generalize dependent (2 ^ 134)%N. generalize dependent (2 ^ 256)%N. intros. lia.
Qed.
