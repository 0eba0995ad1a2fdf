(** C86: most sequences of protocol ids fit into a small tree. *)
From Verif Require Import Base BaseFacts OrdMap OrdMapFacts SpecTree SpecValid SpecCommit SpecCount CountProofs MpcAtoms MpcTree MpcTreeProofs TheoremsMpc.
From Coq Require Import Permutation.
Local Open Scope nat_scope.

Lemma choices_le D n : (choices D n <= 2 ^ (256 * N.of_nat n))%N.
Proof.
  induction n as [|n IH]; [reflexivity|]. cbn [choices]. rewrite Nat2N.inj_succ, N.mul_succ_r, N.pow_add_r.
  apply N.mul_le_mono; [exact IH|lia].
Qed.
Lemma choices_bound D n : D <= 31 ->
  (2 ^ N.of_nat (S D) * 2 ^ (256 * N.of_nat n) <=
   2 ^ N.of_nat (S D) * choices D n + N.of_nat n * N.of_nat (n - 1) * 2 ^ (256 * N.of_nat n))%N.
Proof.
  intros HD. pose proof (qM D HD) as QM. rewrite Nat2N.inj_succ, N.pow_succ_r'.
  set (M := (2 ^ N.of_nat D)%N) in *.
  assert (MP : (1 <= M)%N) by (pose proof (N.pow_nonzero 2 (N.of_nat D)); lia).
  induction n as [|n IH].
  - cbn [choices]. change (256 * N.of_nat 0)%N with 0%N. cbn. lia.
  - cbn [choices]. pose proof (choices_le D n) as CL. revert IH CL.
    replace (N.of_nat (S n - 1)) with (N.of_nat n) by lia.
    rewrite (Nat2N.inj_succ n), N.mul_succ_r, N.pow_add_r.
    set (T := (2 ^ 256)%N) in *. set (P := (2 ^ (256 * N.of_nat n))%N). set (c := choices D n).
    set (q := (2 ^ N.of_nat (256 - D))%N) in *. clearbody c q P T M. clear HD. intros IH CL.
    destruct (N.le_gt_cases (N.of_nat n * q) T) as [L|L].
    + assert (E : ((T - N.of_nat n * q) + N.of_nat n * q = T)%N) by lia.
      set (r := (T - N.of_nat n * q)%N) in *. clearbody r.
      assert (X : (N.of_nat n * N.of_nat (n - 1) + 2 * N.of_nat n = N.succ (N.of_nat n) * N.of_nat n)%N).
      { destruct n; [reflexivity|]. replace (S n - 1) with n by lia. nia. }
      rewrite <- X. clear X.
      assert (A : (2 * M * (P * T) <= 2 * M * c * T + N.of_nat n * N.of_nat (n - 1) * P * T)%N) by nia.
      assert (B : (2 * M * c * (N.of_nat n * q) <= 2 * N.of_nat n * (P * T))%N).
      { replace (2 * M * c * (N.of_nat n * q))%N with (2 * N.of_nat n * (c * (q * M)))%N by lia. rewrite QM.
        apply N.mul_le_mono_l, N.mul_le_mono_r, CL. }
      assert (C : (2 * M * c * T = 2 * M * (c * r) + 2 * M * c * (N.of_nat n * q))%N).
      { rewrite <- E. lia. }
      rewrite C in A. lia.
    + replace (T - N.of_nat n * q)%N with 0%N by lia.
      assert (LM : (M < N.of_nat n)%N).
      { rewrite <- QM in L. rewrite (N.mul_comm q M) in L. apply N.mul_lt_mono_pos_r in L; [exact L|].
        destruct (N.eq_dec q 0) as [->|]; lia. }
      rewrite !N.mul_0_r, N.add_0_l. apply N.mul_le_mono_r. nia.
Qed.

Lemma c86_all : forall n, exists L, lists_all L (fun l => length l = n) /\ N.of_nat (length L) = (2 ^ (256 * N.of_nat n))%N.
Proof.
  intros n. destruct all_ids as (S & SN & SI & SL). exists (tuples S n). split; [split|].
  - apply tuples_NoDup, SN.
  - intros l. apply tuples_in, SI.
  - rewrite tuples_length, SL, N.pow_mul_r. reflexivity.
Qed.
Lemma c86_exact : forall D n (deep : D <= 31),
  exists L, lists_all L (fun l => length l = n /\ spread D l) /\ N.of_nat (length L) = choices D n.
Proof.
  intros D n HD. destruct all_ids as (S & SN & SI & SL). exists (good D S n). split; [split|].
  - apply good_NoDup, SN.
  - intros l. apply good_in; assumption.
  - apply good_length; assumption.
Qed.
Lemma c86_few_fail : forall D n (deep : D <= 31),
  exists L, lists_all L (fun l => length l = n /\ ~ spread D l) /\
    (N.of_nat (length L) * 2 ^ N.of_nat (S D) <= N.of_nat n * N.of_nat (n - 1) * 2 ^ (256 * N.of_nat n))%N.
Proof.
  intros D n HD. destruct (c86_all n) as (A & [AN AI] & AL). destruct (c86_exact D n HD) as (G & [GN GI] & GL).
  set (f := fun l => if in_dec (list_eq_dec b32_eq_dec) l G then true else false).
  exists (filter (fun l => negb (f l)) A). split; [split|].
  - apply NoDup_filter, AN.
  - intros l. rewrite filter_In, AI. unfold f. split.
    + intros [E F]. split; [exact E|]. intros S. destruct (in_dec _ l G) as [I|N]; [discriminate|]. apply N, GI. auto.
    + intros [E NS]. split; [exact E|]. destruct (in_dec _ l G) as [I|N]; [|reflexivity]. apply GI in I. tauto.
  - assert (E : length (filter (fun _ => true) A) = length (filter f A) + length (filter (fun l => negb (f l)) A)).
    { apply filter_split; intros x; destruct (f x); cbn; intuition discriminate. }
    assert (EA : filter (fun _ => true) A = A) by (clear; induction A as [|a A IH]; cbn; congruence).
    rewrite EA in E.
    assert (EG : length (filter f A) = length G).
    { apply Nat.le_antisymm; apply NoDup_incl_length.
      - apply NoDup_filter, AN.
      - intros l I. apply filter_In in I as [_ F]. unfold f in F. destruct (in_dec _ l G); [assumption|discriminate].
      - exact GN.
      - intros l I. apply filter_In. split; [apply AI; apply GI in I; tauto|]. unfold f. destruct (in_dec _ l G); [reflexivity|tauto]. }
    rewrite EG in E. pose proof (choices_bound D n HD) as B. rewrite <- AL, <- GL in B. rewrite E in B at 1.
    rewrite Nat2N.inj_add, N.mul_add_distr_l in B. rewrite AL in B. lia.
Qed.
Lemma c86_depth : forall src rng D (valid : valid_source src) (entropy : ms_static_entropy src <> None \/ rng <> None)
  (some : ms_min_depth src <> 0 \/ ms_messages src <> []) (from : ms_min_depth src <= D) (deep : D <= 31)
  (apart : spread D (map fst (ms_messages src))),
  exists t, try_commit src rng = Ret (Ok t) /\ mt_depth t <= D.
Proof.
  intros src rng D V EN S F HD A.
  assert (FIT : fits (ms_messages src) D 0) by (unfold fits; unfold spread in A; rewrite map_map in A; exact A).
  assert (AL : allowed (ms_min_depth src) (length (ms_messages src)) D 0).
  { split; [lia|]. split; [|split; [discriminate|apply N.le_0_l]].
    assert (I : incl (map (fun e => s_pos (fst e) 0 D) (ms_messages src)) (map N.of_nat (seq 0 (N.to_nat (2 ^ N.of_nat D))))).
    { intros i Hi. apply in_map_iff in Hi as (e & <- & _). apply in_map_iff.
      exists (N.to_nat (s_pos (fst e) 0 D)). split; [apply N2Nat.id|]. apply in_seq.
      pose proof (place_lt D HD (fst e)) as L. unfold place in L. cbv zeta in L. split; [apply Nat.le_0_l|]. cbn [Nat.add]. unfold N.lt in L; rewrite N2Nat.inj_compare in L; apply Nat.compare_lt_iff in L; exact L. }
    pose proof (NoDup_incl_length FIT I) as L. rewrite !map_length, seq_length in L. lia. }
  destruct (c05_first_fit src rng V EN) as [[Z [L _]]|[[_ [NO _]]|[_ [t [E [_ MIN]]]]]].
  - exfalso. destruct S as [S|S]; [contradiction|]. destruct (ms_messages src); [auto|discriminate].
  - exfalso. exact (NO D 0%N (conj AL FIT)).
  - exists t. split; [exact E|]. destruct (MIN D 0%N (conj AL FIT)) as [L|[L _]]; cbn in L; lia.
Qed.
Lemma c86_small : forall D n (deep : D <= 31),
  exists L, (N.of_nat (length L) * 2 ^ N.of_nat (S D) <= N.of_nat n * N.of_nat (n - 1) * 2 ^ (256 * N.of_nat n))%N /\
    forall l src rng, length l = n -> ~ In l L -> valid_source src -> Permutation (map fst (ms_messages src)) l ->
      ms_min_depth src <= D -> (ms_min_depth src <> 0 \/ n <> 0) -> (ms_static_entropy src <> None \/ rng <> None) ->
      exists t, try_commit src rng = Ret (Ok t) /\ mt_depth t <= D.
Proof.
  intros D n HD. destruct (c86_few_fail D n HD) as (L & [_ LI] & LB). exists L. split; [exact LB|].
  intros l src rng E NI V P F S EN. apply c86_depth; try assumption.
  - destruct S as [S|S]; [left; exact S|right]. intros Z. rewrite Z in P. apply Permutation_nil in P. subst l. apply S. symmetry. exact E.
  - unfold spread. assert (NE : ~ ~ spread D l) by (intros X; apply NI, LI; auto).
    destruct (ListDec.NoDup_dec N.eq_dec (map (fun p => s_pos p 0 D) l)) as [Y|Y]; [|contradiction].
    eapply Permutation_NoDup; [|exact Y]. apply Permutation_map, Permutation_sym, P.
Qed.

(** Sources of every size which the type admits *)
Definition numbered (n : nat) : list (bytes32 * bytes32) := map (fun i => (b32_of_N (N.of_nat i), b32_fill x00)) (seq 0 n).
Lemma numbered_places n : (N.of_nat n <= 2 ^ 24)%N ->
  map (fun p => s_pos p 0 24) (map fst (numbered n)) = map N.of_nat (seq 0 n).
Proof.
  intros B. unfold numbered. rewrite !map_map. cbn [fst]. apply map_ext_in. intros i I. apply in_seq in I.
  unfold s_pos. change (le_val (b32_of_N (N.of_nat i))) with (N_of_b32 (b32_of_N (N.of_nat i))).
  rewrite N_of_b32_of_N. change (N.max 1 (2 ^ N.of_nat 24 - 0)) with (2 ^ 24)%N.
  assert (L : (N.of_nat i < 2 ^ 24)%N) by lia.
  rewrite (N.mod_small _ (2 ^ 256)); [apply N.mod_small; exact L|]. eapply N.lt_trans; [exact L|reflexivity].
Qed.
Lemma c86_capacity : forall n d e rng (count : (N.of_nat n < 2 ^ 24)%N) (depth : d <= 24) (some : d <> 0 \/ n <> 0)
  (entropy : (e < 2 ^ 64)%N),
  exists src t, valid_source src /\ length (ms_messages src) = n /\ ms_min_depth src = d /\
    ms_static_entropy src = Some e /\ try_commit src rng = Ret (Ok t) /\ mt_depth t <= 24.
Proof.
  intros n d e rng B HD S HE.
  pose proof (numbered_places n) as PL. specialize (PL ltac:(lia)).
  assert (ND : NoDup (map (fun p => s_pos p 0 24) (map fst (numbered n)))).
  { rewrite PL. apply FinFun.Injective_map_NoDup; [intros a b; apply Nat2N.inj|apply seq_NoDup]. }
  pose proof (om_of_list_perm b32_ltb (numbered n) (NoDup_map_inv _ _ ND)) as P.
  set (src := MultiSource Sha256t d (om_of_list b32_ltb (numbered n)) (Some e)).
  assert (LN : length (ms_messages src) = n).
  { cbn. rewrite <- (Permutation_length P). unfold numbered. rewrite map_length, seq_length. reflexivity. }
  assert (V : valid_source src).
  { split; [cbn; lia|]. split; [rewrite LN; unfold u24_max; lia|]. split; [exact (om_of_list_sorted b32_ltb (numbered n))|exact HE]. }
  destruct (c86_depth src rng 24) as (t & E & L); try assumption.
  - left. discriminate.
  - destruct S as [S|S]; [left; exact S|right]. intros Z. rewrite Z in LN. apply S. symmetry. exact LN.
  - lia.
  - unfold spread. eapply Permutation_NoDup; [|exact ND]. apply Permutation_map, Permutation_map, P.
  - exists src, t. split; [exact V|]. split; [exact LN|]. split; [reflexivity|]. split; [reflexivity|]. split; [exact E|exact L].
Qed.
