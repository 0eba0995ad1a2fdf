(** Bounds on the depth of trees with chosen protocol ids. *)
From Coq Require Import Sorting.Sorted.
From Verif Require Import Base BaseFacts OrdMap OrdMapFacts SpecCommit SpecDepth SpecValid MpcAtoms MpcTree MpcTreeProofs
  AvailProofs DepthData.
Local Open Scope N_scope.

(** ** A collision at every attempt makes a product of differences divisible by every width *)
Lemma length_pairs l : N.of_nat (length (diffs l)) = pair_count (length l).
Proof.
  unfold pair_count. pose proof (diffs_length l) as E.
  assert (E2 : N.of_nat (length l) * (N.of_nat (length l) - 1) = N.of_nat (length (diffs l)) * 2).
  { destruct (length l) as [|k]; [destruct (length (diffs l)); [reflexivity|cbn in E; lia]|].
    replace (S k - 1)%nat with k in E by lia. replace (N.of_nat (S k) - 1) with (N.of_nat k) by lia. nia. }
  rewrite E2, N.div_mul; [reflexivity|discriminate].
Qed.
Lemma pairs_pos n : (2 <= n)%nat -> pair_count n <> 0.
Proof.
  intros L. unfold pair_count. assert (E : 2 * 1 <= N.of_nat n * (N.of_nat n - 1)).
  { apply N.mul_le_mono; lia. }
  pose proof (N.div_le_mono _ _ 2 ltac:(discriminate) E) as X. change (2 * 1 / 2) with 1 in X. lia.
Qed.

Definition allowedb (m n d : nat) (c : N) : bool :=
  (m <=? d)%nat && (d <=? 31)%nat && (N.of_nat n <=? 2 ^ N.of_nat d) && (c <=? 500) &&
  (c <=? if Nat.eqb d m then 1 else 2 ^ N.of_nat (d - 1)).
Lemma allowedb_spec m n d c : allowedb m n d c = true <-> allowed m n d c.
Proof.
  unfold allowedb, allowed. rewrite !Bool.andb_true_iff, !Nat.leb_le, !N.leb_le. tauto.
Qed.

Lemma escape msgs m D : (2 <= length msgs)%nat -> (D <= 31)%nat -> NoDup (map fst msgs) -> enough m (length msgs) D ->
  exists d c, (d <= D)%nat /\ allowed m (length msgs) d c /\ fits msgs d c.
Proof.
  intros L DD ND EN.
  set (tries := flat_map (fun d => map (fun c => (d, c)) (N_range 501)) (seq 0 (S D))).
  set (good := fun e : nat * N => allowedb m (length msgs) (fst e) (snd e) &&
     if ListDec.NoDup_dec N.eq_dec (map (fun x => s_pos (fst x) (snd e) (fst e)) msgs) then true else false).
  destruct (existsb good tries) eqn:X.
  - apply existsb_exists in X as [[d c] [I G]]. unfold good in G. cbn [fst snd] in G.
    apply andb_prop in G as [G1 G2]. apply allowedb_spec in G1. exists d, c.
    unfold tries in I. apply in_flat_map in I as [d' [I1 I2]]. apply in_map_iff in I2 as [c' [E _]].
    injection E as -> ->. apply in_seq in I1. split; [lia|]. split; [exact G1|]. unfold fits.
    destruct (ListDec.NoDup_dec _ _) as [Y|Y]; [exact Y|discriminate].
  - exfalso.
    assert (NO : forall d c, (d <= D)%nat -> allowed m (length msgs) d c -> ~ fits msgs d c).
    { intros d c Ld A F. assert (T : existsb good tries = true); [|congruence].
      apply existsb_exists. exists (d, c). split.
      - unfold tries. apply in_flat_map. exists d. split; [apply in_seq; lia|]. apply in_map_iff. exists c.
        split; [reflexivity|]. apply N_range_In. destruct A as [_ [_ [A _]]]. lia.
      - unfold good. cbn [fst snd]. apply allowedb_spec in A. rewrite A. unfold fits in F.
        destruct (ListDec.NoDup_dec _ _) as [Y|Y]; [reflexivity|contradiction]. }
    clear X good tries. set (xs := map (fun e : bytes32 * bytes32 => le_val (fst e)) msgs).
    assert (NDx : NoDup xs).
    { unfold xs. rewrite <- (map_map fst (fun p : bytes32 => le_val p)).
      apply FinFun.Injective_map_NoDup; [|exact ND]. intros a b E. apply le_val_inj32, E. }
    assert (Bx : Forall (fun x => x <= N.pred (2 ^ 256)) xs).
    { unfold xs. apply Forall_map, Forall_forall. intros e _. apply id_bound. }
    destruct (prod_bound (diffs xs) _ (diffs_bound _ _ NDx Bx)) as [ZQ BQ].
    rewrite length_pairs in BQ. unfold xs in BQ at 2. rewrite map_length in BQ.
    assert (S1 : N.pred (2 ^ 256) ^ pair_count (length msgs) < 2 ^ (256 * pair_count (length msgs))).
    { rewrite N.pow_mul_r. apply N.pow_lt_mono_l; [apply pairs_pos, L|]. apply N.lt_pred_l. discriminate. }
    apply (N.lt_irrefl (2 ^ (256 * pair_count (length msgs)))). eapply N.le_lt_trans; [|exact S1].
    etransitivity; [|exact BQ]. apply EN; [exact ZQ|]. intros d c Ld A.
    destruct (repeated_diff (N.max 1 (2 ^ N.of_nat d - c)) xs) as [x [I Dv]].
    + clear. lia.
    + intros Y. apply (NO d c Ld A). unfold fits. unfold xs in Y. rewrite map_map in Y. exact Y.
    + eapply N.divide_trans; [exact Dv|]. apply prod_in, I.
Qed.

(** ** Primes *)
Definition prime_like (p : N) : Prop := 1 < p /\ forall k, N.divide k p -> k = 1 \/ k = p.

Lemma prime_like_coprime p r : prime_like p -> prime_like r -> p <> r -> N.gcd p r = 1.
Proof.
  intros [P1 P2] [R1 R2] X. destruct (P2 _ (N.gcd_divide_l p r)) as [E|E]; [exact E|].
  destruct (R2 _ (N.gcd_divide_r p r)) as [E'|E']; [exact E'|]. congruence.
Qed.
Lemma coprime_pow p r a b : N.gcd p r = 1 -> N.gcd (p ^ a) (r ^ b) = 1.
Proof.
  intros G. assert (G1 : forall x, N.gcd x r = 1 -> N.gcd x (r ^ b) = 1).
  { intros x Gx. induction b using N.peano_ind; [apply N.gcd_1_r|]. rewrite N.pow_succ_r', N.gcd_comm.
    apply coprime_mul; rewrite N.gcd_comm; assumption. }
  induction a using N.peano_ind; [apply N.gcd_1_l|]. rewrite N.pow_succ_r'. apply coprime_mul; [apply G1, G|exact IHa].
Qed.

(** Trial division by the members of a list, until their squares exceed the number *)
Fixpoint trial (ts : list N) (p : N) : bool :=
  match ts with
  | [] => true
  | t :: r => if p <? t * t then true else if p mod t =? 0 then false else trial r p
  end.
(** every number from 2 to [B] has a divisor, at most itself but not 1, in the list *)
Definition sieve_for (ts : list N) (B : N) : Prop :=
  forall k, 2 <= k <= B -> exists t, In t ts /\ 2 <= t <= k /\ N.divide t k.

Lemma trial_ok ts p t : Sorted N.lt ts -> trial ts p = true -> In t ts -> t <> 0 -> t * t <= p -> ~ N.divide t p.
Proof.
  intros S. apply Sorted_StronglySorted in S; [|exact N.lt_trans].
  induction S as [|x r S IH F]; intros T I Z Q Dv; [destruct I|]. cbn [trial] in T.
  destruct I as [->|I].
  - replace (p <? t * t) with false in T by (symmetry; apply N.ltb_ge; exact Q).
    apply N.mod_divide in Dv; [|exact Z]. rewrite Dv in T. discriminate.
  - rewrite Forall_forall in F. specialize (F t I).
    assert (Q2 : x * x <= p) by nia.
    replace (p <? x * x) with false in T by (symmetry; apply N.ltb_ge; exact Q2).
    destruct (p mod x =? 0); [discriminate|]. exact (IH T I Z Q Dv).
Qed.
Lemma trial_prime ts B p : Sorted N.lt ts -> sieve_for ts B -> 1 < p -> p < (B + 1) * (B + 1) -> trial ts p = true ->
  prime_like p.
Proof.
  intros S V P1 PB T. split; [exact P1|]. intros k [j E].
  destruct (N.eq_dec k 1) as [K1|K1]; [left; exact K1|]. destruct (N.eq_dec k p) as [Kp|Kp]; [right; exact Kp|]. exfalso.
  assert (K0 : k <> 0) by nia. assert (J0 : j <> 0) by nia. assert (J1 : j <> 1) by nia.
  assert (Key : forall s, 2 <= s -> s * s <= p -> N.divide s p -> False).
  { intros s S2 Sq Sd. assert (SB : s <= B) by nia. destruct (V s (conj S2 SB)) as [t [It [[T2 Tk] Td]]].
    apply (trial_ok ts p t S T It); [lia|nia|]. exact (N.divide_trans _ _ _ Td Sd). }
  destruct (N.le_ge_cases k j) as [L|L].
  - apply (Key k); [lia|nia|exists j; exact E].
  - apply (Key j); [lia|nia|exists k; lia].
Qed.

(** primes up to 511 *)
Definition sieve : list N := [
  2; 3; 5; 7; 11; 13; 17; 19; 23; 29; 31; 37; 41; 43; 47; 53; 59; 61; 67; 71; 73; 79; 83; 89; 97; 101; 103; 107; 109;
  113; 127; 131; 137; 139; 149; 151; 157; 163; 167; 173; 179; 181; 191; 193; 197; 199; 211; 223; 227; 229; 233; 239;
  241; 251; 257; 263; 269; 271; 277; 281; 283; 293; 307; 311; 313; 317; 331; 337; 347; 349; 353; 359; 367; 373; 379;
  383; 389; 397; 401; 409; 419; 421; 431; 433; 439; 443; 449; 457; 461; 463; 467; 479; 487; 491; 499; 503; 509].
Fixpoint ascending (l : list N) : bool :=
  match l with
  | x :: r => match r with [] => true | y :: _ => if x <? y then ascending r else false end
  | [] => true
  end.
Lemma ascending_sorted l : ascending l = true -> Sorted N.lt l.
Proof.
  induction l as [|x r IH]; intros A; [constructor|]. cbn [ascending] in A. destruct r as [|y r]; [repeat constructor|].
  destruct (x <? y) eqn:E; [|discriminate]. apply N.ltb_lt in E. constructor; [apply IH, A|constructor; exact E].
Qed.
Lemma sorted_distinct l : Sorted N.lt l -> ForallOrdPairs (fun a b => a <> b) l.
Proof.
  intros S. apply Sorted_StronglySorted in S; [|exact N.lt_trans]. induction S as [|x r S IH F]; constructor; [|exact IH].
  eapply Forall_impl; [|exact F]. cbn. intros a L. lia.
Qed.

Lemma sieve_checked : ascending sieve && forallb (fun t => 2 <=? t) sieve &&
  forallb (fun n => existsb (fun t => (t <=? N.of_nat n) && (N.of_nat n mod t =? 0)) sieve) (seq 2 510) = true.
Proof. vm_compute. reflexivity. Qed.
Lemma sieve_sorted : Sorted N.lt sieve.
Proof. apply ascending_sorted. pose proof sieve_checked as C. apply andb_prop in C as [C _]. apply andb_prop in C as [C _]. exact C. Qed.
Lemma sieve_511 : sieve_for sieve 511.
Proof.
  pose proof sieve_checked as C. apply andb_prop in C as [C C3]. apply andb_prop in C as [_ C2].
  rewrite forallb_forall in C2, C3. intros k K. specialize (C3 (N.to_nat k)). rewrite N2Nat.id in C3.
  destruct (existsb_exists (fun t => (t <=? k) && (k mod t =? 0)) sieve) as [X _].
  destruct X as [t [I E]]; [apply C3, in_seq; lia|]. apply andb_prop in E as [E1 E2].
  specialize (C2 t I). apply N.leb_le in C2. apply N.leb_le in E1. apply N.eqb_eq in E2.
  exists t. split; [exact I|]. split; [lia|]. apply N.mod_divide; [lia|exact E2].
Qed.

(** ** What is checked about the factors *)
Definition power_ok (p : N) (w : N * nat * N) : bool :=
  let '(e, d, c) := w in
  (8 <=? d)%nat && (d <=? 31)%nat && (c <=? 500) && (c <=? 2 ^ N.of_nat (d - 1)) && ((2 ^ N.of_nat d - c) mod (p ^ e) =? 0).
Definition factor_ok (f : N * list (N * nat * N)) : bool :=
  (1 <? fst f) && (fst f <? 512 * 512) && trial sieve (fst f) && forallb (power_ok (fst f)) (snd f).
Lemma factors_checked : ascending (map fst factors) && forallb factor_ok factors = true.
Proof. vm_compute. reflexivity. Qed.

(** the highest power in the widths down to depth [D] *)
Fixpoint best (D : nat) (l : list (N * nat * N)) : N :=
  match l with
  | [] => 0
  | (e, d, _) :: r => if (d <=? D)%nat then N.max e (best D r) else best D r
  end.
Definition powers (D : nat) : list N := map (fun f => fst f ^ best D (snd f)) factors.

Lemma best_cases D l : best D l = 0 \/ exists d c, (d <= D)%nat /\ In (best D l, d, c) l.
Proof.
  induction l as [|[[e d] c] r IH]; cbn [best]; [left; reflexivity|]. destruct (Nat.leb_spec d D) as [L|L].
  - destruct (N.max_spec e (best D r)) as [[_ E]|[_ E]]; rewrite E.
    + destruct IH as [IH|[d' [c' [L' I]]]]; [left; exact IH|right; exists d', c'; split; [exact L'|right; exact I]].
    + right. exists d, c. split; [exact L|left; reflexivity].
  - destruct IH as [IH|[d' [c' [L' I]]]]; [left; exact IH|right; exists d', c'; split; [exact L'|right; exact I]].
Qed.
Lemma factor_facts p l : In (p, l) factors -> prime_like p /\
  forall e d c, In (e, d, c) l -> (8 <= d <= 31)%nat /\ c <= 500 /\ c <= 2 ^ N.of_nat (d - 1) /\ N.divide (p ^ e) (2 ^ N.of_nat d - c).
Proof.
  intros I. pose proof factors_checked as C. apply andb_prop in C as [_ C]. rewrite forallb_forall in C. specialize (C _ I).
  unfold factor_ok in C. cbn [fst snd] in C. apply andb_prop in C as [C C4]. apply andb_prop in C as [C C3].
  apply andb_prop in C as [C1 C2]. apply N.ltb_lt in C1. apply N.ltb_lt in C2. split.
  - apply (trial_prime sieve 511); [exact sieve_sorted|exact sieve_511|exact C1|exact C2|exact C3].
  - intros e d c J. rewrite forallb_forall in C4. specialize (C4 _ J). unfold power_ok in C4.
    rewrite !Bool.andb_true_iff, !Nat.leb_le, !N.leb_le, N.eqb_eq in C4. destruct C4 as [[[[A1 A2] A3] A4] A5].
    split; [lia|]. split; [exact A3|]. split; [exact A4|]. apply N.mod_divide; [apply N.pow_nonzero; lia|exact A5].
Qed.
Lemma powers_coprime D : ForallOrdPairs (fun a b => N.gcd a b = 1) (powers D).
Proof.
  pose proof factors_checked as C. apply andb_prop in C as [C _]. apply ascending_sorted, sorted_distinct in C.
  assert (P : Forall (fun f => prime_like (fst f)) factors).
  { apply Forall_forall. intros [p l] I. exact (proj1 (factor_facts p l I)). }
  unfold powers. clear -C P. induction factors as [|f r IH]; cbn [map] in *; [constructor|].
  inversion_clear C as [|? ? C1 C2]. apply Forall_cons_iff in P as [Pf P]. constructor; [|exact (IH C2 P)].
  apply Forall_map. rewrite Forall_map in C1. rewrite Forall_forall in *. intros g I. apply coprime_pow.
  apply prime_like_coprime; [exact Pf|apply P, I|apply C1, I].
Qed.
Lemma powers_nonzero D : Forall (fun a => a <> 0) (powers D).
Proof.
  unfold powers. apply Forall_map, Forall_forall. intros [p l] I. cbn [fst snd]. apply N.pow_nonzero.
  destruct (factor_facts p l I) as [[L _] _]. lia.
Qed.

(** ** Weighing a product in portions of sixteen *)
Fixpoint weigh (k : nat) (acc : N) (l : list N) : N :=
  match l with
  | [] => N.log2 acc
  | x :: r => match k with O => N.log2 acc + weigh 15 x r | S k' => weigh k' (x * acc) r end
  end.
Lemma weigh_prod l : forall k acc, acc <> 0 -> Forall (fun a => a <> 0) l -> 2 ^ weigh k acc l <= acc * prod l.
Proof.
  induction l as [|x r IH]; intros k acc Z F; cbn [weigh prod fold_right].
  - rewrite N.mul_1_r. apply N.log2_spec. lia.
  - apply Forall_cons_iff in F as [Fx F]. destruct k as [|k].
    + rewrite N.pow_add_r. apply N.mul_le_mono; [apply N.log2_spec; lia|apply IH; assumption].
    + etransitivity; [apply IH; [apply N.neq_mul_0; split; assumption|exact F]|]. unfold prod. lia.
Qed.

Definition limits_ok (n : nat) : bool :=
  256 * pair_count n <=? weigh 16 1 (filter (fun x => negb (x =? 1)) (powers (depth_limit n))).
Lemma limits_checked : forallb limits_ok (seq 2 9) = true.
Proof. vm_compute. reflexivity. Qed.
Lemma filter_prod l : prod (filter (fun x => negb (x =? 1)) l) = prod l.
Proof.
  induction l as [|x r IH]; [reflexivity|]. cbn [filter]. destruct (N.eqb_spec x 1) as [->|E]; cbn [negb prod fold_right].
  - unfold prod in IH. rewrite IH. lia.
  - unfold prod in IH. rewrite IH. reflexivity.
Qed.

Lemma limit_cases n : (2 <= n <= 10)%nat -> (8 <= depth_limit n <= 18)%nat /\ limits_ok n = true.
Proof.
  intros L. pose proof limits_checked as C. rewrite forallb_forall in C. split; [|apply C, in_seq; lia].
  assert (E : forallb (fun n => (8 <=? depth_limit n)%nat && (depth_limit n <=? 18)%nat) (seq 2 9) = true) by reflexivity.
  rewrite forallb_forall in E. specialize (E n). rewrite Bool.andb_true_iff, !Nat.leb_le in E. apply E, in_seq. lia.
Qed.
Lemma enough_limits m n : (m <= 7)%nat -> (2 <= n <= 10)%nat -> enough m n (depth_limit n).
Proof.
  intros M Ln q Z W. destruct (limit_cases n Ln) as [Ld K]. apply N.leb_le in K.
  assert (Dv : N.divide (prod (powers (depth_limit n))) q).
  { apply prod_divides; [apply powers_coprime|]. unfold powers. apply Forall_map, Forall_forall. intros [p l] I. cbn [fst snd].
    destruct (factor_facts p l I) as [_ F]. destruct (best_cases (depth_limit n) l) as [->|[d [c [Ldd J]]]].
    - rewrite N.pow_0_r. apply N.divide_1_l.
    - destruct (F _ _ _ J) as [D1 [C1 [C2 Dv]]].
      assert (P8 : 2 ^ 8 <= 2 ^ N.of_nat d) by (apply N.pow_le_mono_r; lia). change (2 ^ 8) with 256 in P8.
      assert (Half : 2 ^ N.of_nat d = 2 * 2 ^ N.of_nat (d - 1)).
      { rewrite <- N.pow_succ_r'. f_equal. lia. }
      eapply N.divide_trans; [exact Dv|]. rewrite <- (N.max_r 1 (2 ^ N.of_nat d - c)) by lia.
      apply W; [exact Ldd|]. split; [lia|]. split; [lia|]. split; [exact C1|].
      replace (Nat.eqb d m) with false by (symmetry; apply Nat.eqb_neq; lia). exact C2. }
  apply N.divide_pos_le in Dv; [|lia]. etransitivity; [|exact Dv]. rewrite <- filter_prod.
  etransitivity; [apply N.pow_le_mono_r; [discriminate|exact K]|].
  etransitivity; [apply weigh_prod; [discriminate|]|rewrite N.mul_1_l; reflexivity].
  pose proof (powers_nonzero (depth_limit n)) as F. rewrite Forall_forall in *. intros x I. apply filter_In in I. apply F, I.
Qed.

(** ** Two messages, deeper trees *)
(** cofactors from [c] on, [n] of them, with pairwise coprime widths, found greedily until the product suffices *)
Fixpoint choose (n : nat) (w c : N) (acc : N) : list N :=
  match n with
  | O => []
  | S n' =>
      if 2 ^ 256 <=? acc then []
      else if N.gcd (w - c) (acc mod (w - c)) =? 1 then (w - c) :: choose n' w (c + 1) ((w - c) * acc)
      else choose n' w (c + 1) acc
  end.
Definition chosen (d : nat) : list N := choose 250 (2 ^ N.of_nat d) 0 1.
Lemma chosen_checked : forallb (fun d => coprime_all (chosen d) && (2 ^ 256 <=? prod (chosen d))) (seq 9 23) = true.
Proof. vm_compute. reflexivity. Qed.
Lemma choose_in n w : forall c acc x, In x (choose n w c acc) -> exists k, c <= k < c + N.of_nat n /\ x = w - k.
Proof.
  induction n as [|n IH]; intros c acc x I; cbn [choose] in I; [destruct I|].
  destruct (2 ^ 256 <=? acc); [destruct I|]. destruct (_ =? 1).
  - destruct I as [<-|I]; [exists c; lia|]. apply IH in I as [k [K E]]. exists k. split; [lia|exact E].
  - apply IH in I as [k [K E]]. exists k. split; [lia|exact E].
Qed.
Lemma chosen_in d x : In x (chosen d) -> exists k, k < 250 /\ x = 2 ^ N.of_nat d - k.
Proof.
  unfold chosen. intros I. apply choose_in in I as [k [K E]]. exists k. split; [|exact E]. clear -K. lia.
Qed.
Lemma chosen_product d : (9 <= d <= 31)%nat -> ForallOrdPairs (fun a b => N.gcd a b = 1) (chosen d) /\ 2 ^ 256 <= prod (chosen d).
Proof.
  intros D. pose proof chosen_checked as C. rewrite forallb_forall in C. specialize (C d).
  rewrite Bool.andb_true_iff, N.leb_le in C. destruct C as [C1 C2]; [apply in_seq; lia|].
  split; [apply coprime_all_ok, C1|exact C2].
Qed.
Lemma pairs_two : pair_count 2 = 1.
Proof. reflexivity. Qed.
Lemma enough_two m : (8 <= m <= 30)%nat -> enough m 2 (S m).
Proof.
  intros M q Z W. destruct (chosen_product (S m) ltac:(lia)) as [C1 C2].
  rewrite pairs_two, N.mul_1_r. etransitivity; [exact C2|]. apply N.divide_pos_le; [clear -Z; lia|].
  apply prod_divides; [exact C1|]. apply Forall_forall. intros x I. clear C1 C2.
  apply chosen_in in I as [k [K ->]]. assert (P8 : 2 ^ 8 <= 2 ^ N.of_nat m) by (apply N.pow_le_mono_r; lia).
  change (2 ^ 8) with 256 in P8.
  assert (Dbl : 2 ^ N.of_nat (S m) = 2 * 2 ^ N.of_nat m) by (rewrite Nat2N.inj_succ; apply N.pow_succ_r').
  rewrite <- (N.max_r 1 (2 ^ N.of_nat (S m) - k)) by lia. apply W; [lia|]. split; [lia|]. split; [lia|]. split; [lia|].
  replace (Nat.eqb (S m) m) with false by (symmetry; apply Nat.eqb_neq; lia). replace (S m - 1)%nat with m by lia. lia.
Qed.

(** ** Numbers divisible by all the widths *)
Fixpoint row_ok (d : nat) (c : N) (l : list N) : bool :=
  match l with
  | [] => true
  | i :: r => if nth (N.to_nat i) blockers 1 mod (2 ^ N.of_nat d - c) =? 0 then row_ok d (c + 1) r else false
  end.
Fixpoint rows_ok (d : nat) (l : list (list N)) : bool :=
  match l with
  | [] => true
  | r :: l' => row_ok d (if Nat.eqb d 31 then 0 else 251) r && rows_ok (d - 1) l'
  end.
Definition row_length (d : nat) : nat := if Nat.eqb d 31 then 501 else if Nat.eqb d 9 then 6 else 250.
Lemma rows_checked : rows_ok 31 blocker_rows = true.
Proof. vm_compute. reflexivity. Qed.
Lemma row_lengths : forallb (fun d => Nat.eqb (length (nth (31 - d) blocker_rows [])) (row_length d)) (seq 9 23) &&
  Nat.eqb (length blocker_rows) 23 = true.
Proof. vm_compute. reflexivity. Qed.
Lemma blockers_checked : ascending (0 :: blockers) && forallb (fun x => x <? 2 ^ 256) blockers && Nat.eqb (length blockers) 279 = true.
Proof. vm_compute. reflexivity. Qed.

Lemma rows_nth l : forall d i r, rows_ok d l = true -> nth_error l i = Some r ->
  row_ok (d - i) (if Nat.eqb (d - i) 31 then 0 else 251) r = true.
Proof.
  induction l as [|x l IH]; intros d [|i] r A E; try discriminate; cbn [rows_ok] in A; apply andb_prop in A as [A1 A2].
  - injection E as <-. rewrite Nat.sub_0_r. exact A1.
  - replace (d - S i)%nat with (d - 1 - i)%nat by lia. apply IH; assumption.
Qed.
Lemma row_nth d l : forall c i x, row_ok d c l = true -> nth_error l i = Some x ->
  nth (N.to_nat x) blockers 1 mod (2 ^ N.of_nat d - (c + N.of_nat i)) = 0.
Proof.
  induction l as [|y l IH]; intros c [|i] x A E; try discriminate; cbn [row_ok] in A; destruct (N.eqb_spec
    (nth (N.to_nat y) blockers 1 mod (2 ^ N.of_nat d - c)) 0) as [Y|Y]; try discriminate.
  - injection E as <-. rewrite N.add_0_r. exact Y.
  - replace (c + N.of_nat (S i)) with (c + 1 + N.of_nat i) by lia. apply IH; assumption.
Qed.
Lemma row_blocks d c : (9 <= d <= 31)%nat -> (if Nat.eqb d 31 then 0 else 251) <= c -> c <= 500 -> (d = 9%nat -> c <= 256) ->
  exists b, In b blockers /\ N.divide (2 ^ N.of_nat d - c) b.
Proof.
  intros D C0 C5 C9. pose proof row_lengths as RL. apply andb_prop in RL as [RL RN]. rewrite forallb_forall in RL.
  specialize (RL d). apply Nat.eqb_eq in RN. rewrite Nat.eqb_eq in RL. specialize (RL ltac:(apply in_seq; lia)).
  destruct (nth_error blocker_rows (31 - d)) as [r|] eqn:E; [|apply nth_error_None in E; lia].
  rewrite (nth_error_nth _ _ _ E) in RL. pose proof (rows_nth _ 31 _ _ rows_checked E) as A.
  replace (31 - (31 - d))%nat with d in A by lia.
  remember (if Nat.eqb d 31 then 0 else 251) as c0 eqn:Ec0.
  destruct (nth_error r (N.to_nat (c - c0))) as [x|] eqn:X.
  - pose proof (row_nth _ _ _ _ _ A X) as Y. replace (c0 + N.of_nat (N.to_nat (c - c0))) with c in Y by lia.
    assert (P9 : 2 ^ 9 <= 2 ^ N.of_nat d) by (apply N.pow_le_mono_r; lia). change (2 ^ 9) with 512 in P9.
    apply N.mod_divide in Y; [|lia]. exists (nth (N.to_nat x) blockers 1). split; [|exact Y].
    destruct (Nat.lt_ge_cases (N.to_nat x) (length blockers)) as [L|L]; [apply nth_In, L|].
    exfalso. rewrite nth_overflow in Y by exact L. apply N.divide_1_r in Y. clear -Y P9 C5. lia.
  - exfalso. apply nth_error_None in X. rewrite RL in X. unfold row_length in X.
    destruct (Nat.eqb d 31) eqn:E1; [clear -X C5; lia|].
    clear A RL E RN. subst c0. destruct (Nat.eqb_spec d 9) as [E9|E9]; [specialize (C9 E9)|]; clear -X C5 C9 C0; lia.
Qed.

(** Every width that can be tried divides one of the numbers. *)
Lemma blocked_width d c : (d <= 31)%nat -> c <= 500 -> c <= N.max 1 (2 ^ N.of_nat (d - 1)) ->
  exists b, In b blockers /\ N.divide (N.max 1 (2 ^ N.of_nat d - c)) b.
Proof.
  remember (31 - d)%nat as k eqn:K. revert d c K. induction k as [k IH] using lt_wf_ind. intros d c K D C5 CH.
  assert (One : forall w, w = 1 -> exists b, In b blockers /\ N.divide w b).
  { intros w ->. destruct (row_blocks 31 0) as [b [I _]]; [lia|reflexivity|lia|lia|]. exists b. split; [exact I|apply N.divide_1_l]. }
  destruct d as [|d].
  { apply One. change (2 ^ N.of_nat 0) with 1. lia. }
  replace (S d - 1)%nat with d in CH by lia.
  assert (Dbl : 2 ^ N.of_nat (S d) = 2 * 2 ^ N.of_nat d) by (rewrite Nat2N.inj_succ; apply N.pow_succ_r').
  assert (Pd : 1 <= 2 ^ N.of_nat d) by (pose proof (N.pow_nonzero 2 (N.of_nat d) ltac:(discriminate)); lia).
  destruct (Nat.eq_dec (S d) 31) as [E31|E31].
  - destruct (row_blocks (S d) c) as [b [I Dv]]; [lia|rewrite E31; cbn; lia|exact C5|lia|].
    exists b. split; [exact I|]. assert (P9 : 2 ^ 9 <= 2 ^ N.of_nat (S d)) by (apply N.pow_le_mono_r; lia).
    change (2 ^ 9) with 512 in P9. rewrite N.max_r by lia. exact Dv.
  - destruct (N.le_gt_cases c 250) as [C|C].
    + destruct (IH (31 - S (S d))%nat ltac:(lia) (S (S d)) (2 * c)) as [b [I Dv]]; [reflexivity|lia|lia| |].
      * replace (S (S d) - 1)%nat with (S d) by lia. lia.
      * exists b. split; [exact I|]. eapply N.divide_trans; [|exact Dv].
        assert (Dbl2 : 2 ^ N.of_nat (S (S d)) = 2 * 2 ^ N.of_nat (S d)) by (rewrite Nat2N.inj_succ; apply N.pow_succ_r').
        rewrite !N.max_r by lia. exists 2. lia.
    + assert (L9 : (9 <= S d)%nat).
      { destruct (Nat.lt_ge_cases d 8) as [L|L]; [|lia]. exfalso.
        assert (P7 : 2 ^ N.of_nat d <= 2 ^ 7) by (apply N.pow_le_mono_r; lia). change (2 ^ 7) with 128 in P7. lia. }
      assert (P9 : 2 ^ 9 <= 2 ^ N.of_nat (S d)) by (apply N.pow_le_mono_r; lia). change (2 ^ 9) with 512 in P9.
      destruct (row_blocks (S d) c) as [b [I Dv]]; [lia| |exact C5| |].
      * replace (Nat.eqb (S d) 31) with false by (symmetry; apply Nat.eqb_neq; exact E31). lia.
      * intros E. assert (d = 8%nat) as -> by lia. change (2 ^ N.of_nat 8) with 256 in CH. lia.
      * exists b. split; [exact I|]. rewrite N.max_r by lia. exact Dv.
Qed.
