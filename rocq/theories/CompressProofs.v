(** Proofs about the compression functions. *)
From Coq Require Import FinFun.
From Verif Require Import Base BaseFacts Sha256 Ripemd SpecSha SpecRipemd SpecCompress ShaProofs RipemdProofs.
Local Open Scope nat_scope.

(** ** Bits *)
Notation small := (fun w => (w < 2 ^ 32)%N).
Lemma bits_val_lt n b : (bits_val n b < 2 ^ N.of_nat n)%N.
Proof.
  induction n as [|n IH]; [reflexivity|]. cbn [bits_val]. rewrite Nat2N.inj_succ, N.pow_succ_r'. destruct (b n); lia.
Qed.
Lemma testbit_small a n i : (a < 2 ^ n)%N -> (n <= i)%N -> N.testbit a i = false.
Proof. intros L I. rewrite <- (N.mod_small a (2 ^ n)) by exact L. apply N.mod_pow2_bits_high, I. Qed.
Lemma bits_val_bit n b : forall i, N.testbit (bits_val n b) i = (i <? N.of_nat n)%N && b (N.to_nat i).
Proof.
  induction n as [|n IH]; intros i.
  - cbn [bits_val]. rewrite N.bits_0. destruct (N.ltb_spec i (N.of_nat 0)); [lia|reflexivity].
  - cbn [bits_val]. pose proof (bits_val_lt n b) as L. destruct (N.ltb_spec i (N.of_nat (S n))) as [I|I]; cbn [andb].
    + destruct (N.eq_dec i (N.of_nat n)) as [->|NE].
      * rewrite Nat2N.id, N.testbit_eqb. destruct (b n).
        -- replace (bits_val n b + 2 ^ N.of_nat n)%N with (1 * 2 ^ N.of_nat n + bits_val n b)%N by lia.
           rewrite N.div_add_l, N.div_small by (try exact L; apply N.pow_nonzero; discriminate). reflexivity.
        -- rewrite N.add_0_r, N.div_small by exact L. reflexivity.
      * assert (J : (i < N.of_nat n)%N) by lia.
        assert (E : N.testbit (bits_val n b + (if b n then 2 ^ N.of_nat n else 0)) i = N.testbit (bits_val n b) i).
        { rewrite <- (N.mod_pow2_bits_low _ (N.of_nat n) i J). f_equal. destruct (b n); [|rewrite N.add_0_r; apply N.mod_small, L].
          replace (bits_val n b + 2 ^ N.of_nat n)%N with (bits_val n b + 1 * 2 ^ N.of_nat n)%N by lia.
          rewrite N.mod_add by (apply N.pow_nonzero; discriminate). apply N.mod_small, L. }
        rewrite E, IH. replace (i <? N.of_nat n)%N with true by (symmetry; apply N.ltb_lt, J). reflexivity.
    + apply (testbit_small _ (N.of_nat (S n))); [|exact I]. exact (bits_val_lt (S n) b).
Qed.
Lemma word_lt b : (word b < 2 ^ 32)%N.
Proof. exact (bits_val_lt 32 b). Qed.
Lemma word_eq x b : (x < 2 ^ 32)%N -> (forall i, (i < 32)%N -> N.testbit x i = b (N.to_nat i)) -> x = word b.
Proof.
  intros L E. apply N.bits_inj. intros i. unfold word. rewrite bits_val_bit. destruct (N.ltb_spec i (N.of_nat 32)) as [I|I]; cbn [andb].
  - apply E, I.
  - apply (testbit_small _ 32); [exact L|exact I].
Qed.
Lemma word_ext b c : (forall i, i < 32 -> b i = c i) -> word b = word c.
Proof.
  intros E. apply word_eq; [apply word_lt|]. intros i I. unfold word. rewrite bits_val_bit.
  replace (i <? N.of_nat 32)%N with true by (symmetry; apply N.ltb_lt, I). apply E. lia.
Qed.
Lemma lt_bits x : (forall i, (32 <= i)%N -> N.testbit x i = false) -> (x < 2 ^ 32)%N.
Proof.
  intros F. destruct (N.lt_ge_cases x (2 ^ 32)) as [L|L]; [exact L|exfalso].
  assert (X : (0 < x)%N) by lia. assert (32 <= N.log2 x)%N by (apply N.log2_le_pow2; assumption).
  pose proof (F _ H) as B. rewrite N.bit_log2 in B by lia. discriminate.
Qed.
Lemma mask_bit i : N.testbit (w32 - 1) i = (i <? 32)%N.
Proof.
  change (w32 - 1)%N with (N.ones 32). destruct (N.ltb_spec i 32) as [I|I]; [apply N.ones_spec_low, I|apply N.ones_spec_high, I].
Qed.
Lemma rotr_bits n x i : n < 32 -> (x < 2 ^ 32)%N -> (i < 32)%N -> N.testbit (rotr (N.of_nat n) x) i = turned n x (N.to_nat i).
Proof.
  intros Hn L I. unfold rotr, turned, bit. rewrite N.lor_spec, N.land_spec, N.shiftr_spec', mask_bit.
  replace (i <? 32)%N with true by (symmetry; apply N.ltb_lt, I). rewrite andb_true_r.
  destruct (N.lt_ge_cases (i + N.of_nat n) 32) as [S|S].
  - rewrite N.shiftl_spec_low by lia. rewrite orb_false_r, Nat.mod_small by lia. f_equal. lia.
  - rewrite (testbit_small x 32 (i + N.of_nat n)) by assumption. cbn [orb]. rewrite N.shiftl_spec_high' by lia. f_equal.
    replace (N.to_nat i + n) with (N.to_nat i + n - 32 + 1 * 32) by lia. rewrite Nat.mod_add, Nat.mod_small by lia. lia.
Qed.
Lemma rotr_lt n x : (x < 2 ^ 32)%N -> (rotr n x < 2 ^ 32)%N.
Proof.
  intros L. apply lt_bits. intros i I. unfold rotr. rewrite N.lor_spec, N.land_spec, N.shiftr_spec', mask_bit.
  rewrite (testbit_small x 32) by (try exact L; lia). replace (i <? 32)%N with false by (symmetry; apply N.ltb_ge, I). rewrite andb_false_r. reflexivity.
Qed.
Lemma shr_bits n x i : (x < 2 ^ 32)%N -> N.testbit (shr (N.of_nat n) x) i = shifted n x (N.to_nat i).
Proof.
  intros L. unfold shr, shifted, bit. rewrite N.shiftr_spec'. replace (N.of_nat (N.to_nat i + n)) with (i + N.of_nat n)%N by lia.
  destruct (Nat.ltb_spec (N.to_nat i + n) 32) as [S|S]; [reflexivity|]. apply (testbit_small x 32); [exact L|lia].
Qed.
Lemma shr_lt n x : (x < 2 ^ 32)%N -> (shr n x < 2 ^ 32)%N.
Proof. intros L. apply lt_bits. intros i I. unfold shr. rewrite N.shiftr_spec'. apply (testbit_small x 32); [exact L|lia]. Qed.
Lemma not32_bit x i : N.testbit (not32 x) i = xorb (N.testbit x i) (i <? 32)%N.
Proof. unfold not32. rewrite N.lxor_spec, mask_bit. reflexivity. Qed.
Lemma high x i : (x < 2 ^ 32)%N -> (32 <= i)%N -> N.testbit x i = false.
Proof. intros. apply (testbit_small x 32); assumption. Qed.
Ltac high_bits := apply lt_bits; intros i I; unfold or32, xor3;
  repeat rewrite ?N.lxor_spec, ?N.land_spec, ?N.lor_spec, ?not32_bit; repeat rewrite high by (try exact I; assumption);
  replace (i <? 32)%N with false by (symmetry; apply N.ltb_ge, I); reflexivity.
Ltac low_bits := intros i I; unfold bit, or32, xor3; rewrite ?N2Nat.id;
  repeat rewrite ?N.lxor_spec, ?N.land_spec, ?N.lor_spec, ?not32_bit; replace (i <? 32)%N with true by (symmetry; apply N.ltb_lt, I).
Ltac bools := repeat match goal with |- context [N.testbit ?x ?i] => destruct (N.testbit x i) end; reflexivity.
Lemma Ch_spec x y z : (x < 2 ^ 32)%N -> (y < 2 ^ 32)%N -> (z < 2 ^ 32)%N -> Ch x y z = Choose x y z.
Proof. intros X Y Z. apply word_eq; [unfold Ch; high_bits|]. unfold Ch. low_bits. bools. Qed.
Lemma Maj_spec x y z : (x < 2 ^ 32)%N -> (y < 2 ^ 32)%N -> (z < 2 ^ 32)%N -> Maj x y z = Majority x y z.
Proof. intros X Y Z. apply word_eq; [unfold Maj; high_bits|]. unfold Maj. low_bits. bools. Qed.
Lemma xor3_spec (f g h : N -> N) (f' g' h' : nat -> bool) x :
  (f x < 2 ^ 32)%N -> (g x < 2 ^ 32)%N -> (h x < 2 ^ 32)%N ->
  (forall i, (i < 32)%N -> N.testbit (f x) i = f' (N.to_nat i)) -> (forall i, (i < 32)%N -> N.testbit (g x) i = g' (N.to_nat i)) ->
  (forall i, (i < 32)%N -> N.testbit (h x) i = h' (N.to_nat i)) -> N.lxor (N.lxor (f x) (g x)) (h x) = Xor3 f' g' h'.
Proof.
  intros F G Hh EF EG EH. apply word_eq; [high_bits|]. intros i I. rewrite !N.lxor_spec, EF, EG, EH by exact I. destruct (f' _), (g' _), (h' _); reflexivity.
Qed.
Ltac sig := match goal with |- N.lxor (N.lxor (?f ?n ?x) (?g ?m ?x)) (?h ?k ?x) = _ => apply (xor3_spec (f n) (g m) (h k)) end;
  first [apply rotr_lt; assumption|apply shr_lt; assumption|idtac]; intros i I;
  first [match goal with |- context [rotr ?n ?x] => change n with (N.of_nat (N.to_nat n)) end; apply rotr_bits; [vm_compute; lia|assumption|exact I]
        |match goal with |- context [shr ?n ?x] => change n with (N.of_nat (N.to_nat n)) end; apply shr_bits; assumption].
Lemma Sg0_spec x : (x < 2 ^ 32)%N -> Sg0 x = Xor3 (turned 2 x) (turned 13 x) (turned 22 x).
Proof. intros X. unfold Sg0. sig. Qed.
Lemma Sg1_spec x : (x < 2 ^ 32)%N -> Sg1 x = Xor3 (turned 6 x) (turned 11 x) (turned 25 x).
Proof. intros X. unfold Sg1. sig. Qed.
Lemma sg0_spec x : (x < 2 ^ 32)%N -> sg0 x = Xor3 (turned 7 x) (turned 18 x) (shifted 3 x).
Proof. intros X. unfold sg0. sig. Qed.
Lemma sg1_spec x : (x < 2 ^ 32)%N -> sg1 x = Xor3 (turned 17 x) (turned 19 x) (shifted 10 x).
Proof. intros X. unfold sg1. sig. Qed.
Lemma rotl_spec n x : 0 < n <= 32 -> (x < 2 ^ 32)%N -> rotl (N.of_nat n) x = rot_left n x.
Proof.
  intros Hn X. unfold rotl, rot_left. replace (32 - N.of_nat n)%N with (N.of_nat (32 - n)) by lia. apply word_eq; [apply rotr_lt, X|].
  intros i I. apply rotr_bits; [lia|exact X|exact I].
Qed.
Lemma rf_spec r x y z : (x < 2 ^ 32)%N -> (y < 2 ^ 32)%N -> (z < 2 ^ 32)%N -> rf r x y z = mixed r x y z.
Proof.
  intros X Y Z. assert (NX : (not32 x < 2 ^ 32)%N) by high_bits. assert (NY : (not32 y < 2 ^ 32)%N) by high_bits. assert (NZ : (not32 z < 2 ^ 32)%N) by high_bits.
  apply word_eq.
  - destruct r as [|[|[|[|r]]]]; cbn [rf]; high_bits.
  - destruct r as [|[|[|[|r]]]]; cbn [rf]; low_bits; cbv zeta; bools.
Qed.
Lemma sum32_lt l : (sum32 l < 2 ^ 32)%N.
Proof. apply N.mod_upper_bound. discriminate. Qed.
Lemma fold_sum l r : fold_right N.add 0%N (l ++ r) = (fold_right N.add 0 l + fold_right N.add 0 r)%N.
Proof. induction l as [|x l IH]; cbn [app fold_right]; [reflexivity|]. rewrite IH. lia. Qed.
Lemma add32_ss l r : add32 (sum32 l) (sum32 r) = sum32 (l ++ r).
Proof. unfold add32, w32, sum32. rewrite N.add_mod_idemp_l, N.add_mod_idemp_r, fold_sum by discriminate. reflexivity. Qed.
Lemma add32_ws a r : add32 a (sum32 r) = sum32 (a :: r).
Proof. unfold add32, w32, sum32. rewrite N.add_mod_idemp_r by discriminate. reflexivity. Qed.
Lemma add32_sw l b : add32 (sum32 l) b = sum32 (l ++ [b]).
Proof. unfold add32, w32, sum32. rewrite N.add_mod_idemp_l, fold_sum by discriminate. cbn [fold_right]. rewrite N.add_0_r. reflexivity. Qed.
Lemma add32_ww a b : add32 a b = sum32 [a; b].
Proof. unfold add32, w32, sum32. cbn [fold_right]. rewrite N.add_0_r. reflexivity. Qed.
Ltac leaf a := lazymatch a with context [add32] => fail | _ => idtac end.
Ltac sums := repeat match goal with |- context [add32 ?a ?b] => leaf a; leaf b;
    first [lazymatch a with sum32 ?l => lazymatch b with sum32 ?r => rewrite (add32_ss l r) | _ => rewrite (add32_sw l b) end end
          |lazymatch b with sum32 ?r => rewrite (add32_ws a r) end|rewrite (add32_ww a b)] end;
  unfold sum32; cbn [fold_right app]; f_equal; lia.

(** ** Constants *)
Definition below (p : N) : list N := map N.of_nat (seq 0 (N.to_nat p)).
Lemma below_In p q : In q (below p) <-> (q < p)%N.
Proof.
  unfold below. rewrite in_map_iff. split.
  - intros (n & <- & I). apply in_seq in I. lia.
  - intros L. exists (N.to_nat q). rewrite N2Nat.id, in_seq. split; [reflexivity|lia].
Qed.
Lemma below_NoDup p : NoDup (below p).
Proof. apply FinFun.Injective_map_NoDup; [intros a b; apply Nat2N.inj|apply seq_NoDup]. Qed.
Definition primeb (p : N) : bool := (1 <? p)%N && forallb (fun d => (d <? 2)%N || negb (p mod d =? 0)%N) (below p).
Lemma primeb_spec p : primeb p = true <-> is_prime p.
Proof.
  unfold primeb, is_prime. rewrite andb_true_iff, N.ltb_lt, forallb_forall. split; intros [L F]; (split; [exact L|]).
  - intros d D. assert (d <= p)%N by (apply N.divide_pos_le; [lia|exact D]).
    destruct (N.eq_dec d p) as [->|N]; [right; reflexivity|left].
    specialize (F d). rewrite below_In, orb_true_iff, N.ltb_lt, negb_true_iff, N.eqb_neq in F. destruct F as [F|F]; [lia| |].
    + destruct (N.eq_dec d 0) as [->|]; [|lia]. destruct D as (k & ->). lia.
    + exfalso. apply F. apply N.mod_divide; [|exact D]. intros ->. destruct D as (k & ->). lia.
  - intros d D. apply below_In in D. rewrite orb_true_iff, N.ltb_lt, negb_true_iff, N.eqb_neq. destruct (N.lt_ge_cases d 2) as [S|S]; [left; exact S|right].
    intros E. apply N.mod_divide in E; [|lia]. destruct (F d E); lia.
Qed.
Definition primes : list N := Eval vm_compute in filter primeb (below 312).
Lemma nth_prime_ok t : t < 64 -> nth_prime t (nth t primes 0%N).
Proof.
  intros T. assert (C : forallb (fun t => let p := nth t primes 0%N in primeb p && (length (filter primeb (below p)) =? t)) (seq 0 64) = true) by (vm_compute; reflexivity).
  rewrite forallb_forall in C. specialize (C t). rewrite in_seq in C. specialize (C ltac:(lia)). cbv zeta in C.
  apply andb_true_iff in C as [C1 C2]. apply Nat.eqb_eq in C2. split; [apply primeb_spec, C1|].
  exists (filter primeb (below (nth t primes 0%N))). split; [apply NoDup_filter, below_NoDup|split; [exact C2|]].
  intros q. rewrite filter_In, below_In, primeb_spec. tauto.
Qed.
Lemma nth_prime_unique t p q : nth_prime t p -> nth_prime t q -> p = q.
Proof.
  assert (K : forall p q, nth_prime t p -> nth_prime t q -> (q <= p)%N).
  { clear. intros p q (P & l & D & L & S) (Q & l' & D' & L' & S'). destruct (N.le_gt_cases q p) as [X|X]; [exact X|exfalso].
    assert (length (p :: l) <= length l').
    { apply NoDup_incl_length; [constructor; [rewrite S; lia|exact D]|]. intros r [<-|R]; apply S'; [auto|]. apply S in R as [R R']. split; [exact R|lia]. }
    cbn [length] in *. lia. }
  intros P Q. apply N.le_antisymm; apply K; assumption.
Qed.
Lemma root_unique r e p k k' : root r e p k -> root r e p k' -> k = k'.
Proof.
  assert (K : forall k k', root r e p k -> root r e p k' -> (k' <= k)%N).
  { clear. intros k k' [_ A] [B _]. destruct (N.le_gt_cases k' k) as [X|X]; [exact X|exfalso].
    assert ((k + 1) ^ r <= k' ^ r)%N by (apply N.pow_le_mono_l; lia). lia. }
  intros A B. apply N.le_antisymm; apply K; assumption.
Qed.
Lemma root_bits_unique r p k k' : root_bits r p k -> root_bits r p k' -> k = k'.
Proof. intros (v & V & ->) (v' & V' & ->). rewrite (root_unique _ _ _ _ _ V V'). reflexivity. Qed.
Definition rootb (r e p k : N) : bool := (k ^ r <=? p * 2 ^ (e * r))%N && (p * 2 ^ (e * r) <? (k + 1) ^ r)%N.
Lemma rootb_ok r e p k : rootb r e p k = true -> root r e p k.
Proof. unfold rootb. rewrite andb_true_iff, N.leb_le, N.ltb_lt. intros X. exact X. Qed.
Definition root_bitsb (r p k : N) : bool := existsb (fun m => rootb r 32 p (m * 2 ^ 32 + k)) (below 20) && (k <? 2 ^ 32)%N.
Lemma root_bitsb_ok r p k : root_bitsb r p k = true -> root_bits r p k.
Proof.
  unfold root_bitsb. rewrite andb_true_iff, existsb_exists, N.ltb_lt. intros [(m & _ & R) L]. exists (m * 2 ^ 32 + k)%N.
  split; [apply rootb_ok, R|]. rewrite N.add_comm, N.mod_add by discriminate. symmetry. apply N.mod_small, L.
Qed.
Lemma constants_ok r l n : n <= 64 -> forallb (fun t => root_bitsb r (nth t primes 0%N) (nth t l 0%N)) (seq 0 n) = true ->
  forall t, t < n -> exists p, nth_prime t p /\ root_bits r p (nth t l 0%N).
Proof.
  intros L C t T. rewrite forallb_forall in C. specialize (C t). rewrite in_seq in C. exists (nth t primes 0%N).
  split; [apply nth_prime_ok; lia|apply root_bitsb_ok, C; lia].
Qed.
Lemma K256_ok : forall t, t < 64 -> exists p, nth_prime t p /\ root_bits 3 p (nth t K256 0%N).
Proof. apply constants_ok; [lia|]. vm_compute. reflexivity. Qed.
Lemma iv_ok : forall t, t < 8 -> exists p, nth_prime t p /\ root_bits 2 p (nth t (words_of iv) 0%N).
Proof. apply constants_ok; [lia|]. vm_compute. reflexivity. Qed.
Lemma constants_unique r t k k' : (exists p, nth_prime t p /\ root_bits r p k) -> (exists p, nth_prime t p /\ root_bits r p k') -> k = k'.
Proof. intros (p & P & R) (p' & P' & R'). rewrite (nth_prime_unique _ _ _ P' P) in R'. exact (root_bits_unique _ _ _ _ R R'). Qed.

(** ** SHA-256 *)
Definition slide (win : list N) : list N := tl win ++ [next_w win].
Fixpoint wins (b : list N) (t : nat) : list N := match t with O => b | S t' => slide (wins b t') end.
Definition wt (b : list N) (t : nat) : N := nth 0 (wins b t) 0%N.
Lemma wins_length b t : length b = 16 -> length (wins b t) = 16.
Proof.
  intros L. induction t as [|t IH]; [exact L|]. cbn [wins]. unfold slide. destruct (wins b t) as [|x l]; [discriminate|].
  cbn [tl]. rewrite app_length. cbn [length] in *. lia.
Qed.
Lemma wins_nth b : length b = 16 -> forall j t, j < 16 -> nth j (wins b t) 0%N = wt b (t + j).
Proof.
  intros L. induction j as [|j IH]; intros t J; [rewrite Nat.add_0_r; reflexivity|].
  rewrite <- Nat.add_succ_comm, <- IH by lia. cbn [wins]. unfold slide. pose proof (wins_length b t L) as LW.
  destruct (wins b t) as [|x l]; [discriminate|]. cbn [tl nth length] in *. rewrite app_nth1 by lia. reflexivity.
Qed.
Lemma wins_next b t : length b = 16 -> wt b (t + 16) = next_w (wins b t).
Proof.
  intros L. replace (t + 16) with (S t + 15) by lia. rewrite <- (wins_nth b L 15 (S t)) by lia. cbn [wins].
  unfold slide. pose proof (wins_length b t L) as LW. destruct (wins b t) as [|x l]; [discriminate|]. cbn [tl length] in *.
  rewrite app_nth2 by lia. replace (15 - length l) with 0 by lia. reflexivity.
Qed.
Lemma wt_small b : length b = 16 -> Forall small b -> forall t, (wt b t < 2 ^ 32)%N.
Proof.
  intros L F t. destruct (Nat.lt_ge_cases t 16) as [T|T].
  - change t with (0 + t). rewrite <- (wins_nth b L t 0 T). apply (Forall_nth small b); [exact F|lia].
  - replace t with (t - 16 + 16) by lia. rewrite wins_next by exact L. apply N.mod_upper_bound. discriminate.
Qed.
Lemma rounds_snoc b k : length b = 16 -> forall ks t s,
  rounds (ks ++ [k]) (wins b t) s = round (rounds ks (wins b t) s) k (wt b (t + length ks)).
Proof.
  intros L. assert (E : forall t, exists w win, wins b t = w :: win /\ wt b t = w /\ win ++ [next_w (w :: win)] = wins b (S t)).
  { intros t. pose proof (wins_length b t L) as LW. unfold wt. cbn [wins]. unfold slide. destruct (wins b t) as [|w win]; [discriminate|].
    exists w, win. auto. }
  induction ks as [|k' ks IH]; intros t s; destruct (E t) as (w & win & E1 & E2 & E3); cbn [app rounds length]; rewrite E1.
  - rewrite Nat.add_0_r, E2. reflexivity.
  - rewrite E3, IH. rewrite Nat.add_succ_r. reflexivity.
Qed.
Lemma round_small s k w : Forall small (words_of s) -> Forall small (words_of (round s k w)).
Proof.
  intros F. unfold words_of in *. cbn [round sa sb sc sd se sf sg sh]. repeat match goal with X : Forall _ (_ :: _) |- _ => inversion_clear X end.
  repeat constructor; try assumption; apply N.mod_upper_bound; discriminate.
Qed.
Lemma round_spec s k w : Forall small (words_of s) -> sha_round k w (words_of s) (words_of (round s k w)).
Proof.
  intros F. unfold words_of in *. cbn [round sa sb sc sd se sf sg sh sha_round]. repeat match goal with X : Forall _ (_ :: _) |- _ => inversion_clear X end.
  rewrite <- Sg1_spec, <- Sg0_spec, <- Ch_spec, <- Maj_spec by assumption.
  f_equal; [sums|]. f_equal; f_equal; f_equal; f_equal; sums.
Qed.
Lemma sha_round_fun k w s s1 s2 : sha_round k w s s1 -> sha_round k w s s2 -> s1 = s2.
Proof. unfold sha_round. do 9 (destruct s as [|? s]; try contradiction). congruence. Qed.
Lemma compress_spec s b : Forall small (words_of s) -> length b = 16 -> Forall small b -> sha_compresses (words_of s) b (words_of (compress s b)).
Proof.
  intros F L B. exists (fun t => nth t K256 0%N), (wt b), (fun t => words_of (rounds (firstn t K256) b s)).
  assert (R : forall t, t < 64 -> rounds (firstn (t + 1) K256) b s = round (rounds (firstn t K256) b s) (nth t K256 0%N) (wt b t)).
  { intros t T. assert (E : firstn (t + 1) K256 = firstn t K256 ++ [nth t K256 0%N]).
    { rewrite Nat.add_1_r. clear - T. assert (LK : length K256 = 64) by reflexivity. revert T. rewrite <- LK. generalize K256. clear.
      induction t as [|t IH]; intros [|x l] T; cbn [length] in T; try lia; [reflexivity|]. cbn [firstn app nth]. f_equal. apply IH. lia. }
    rewrite E. pose proof (rounds_snoc b (nth t K256 0%N) L (firstn t K256) 0 s) as X. cbn [Nat.add] in X. change (wins b 0) with b in X.
    rewrite X, firstn_length. replace (Nat.min t (length K256)) with t by (change (length K256) with 64; lia). reflexivity. }
  assert (SM : forall t, t <= 64 -> Forall small (words_of (rounds (firstn t K256) b s))).
  { induction t as [|t IH]; intros T; [exact F|]. rewrite <- Nat.add_1_r, R by lia. apply round_small, IH. lia. }
  split; [exact K256_ok|split; [|split; [|split; [reflexivity|split]]]].
  - intros t T. change t with (0 + t) at 2. rewrite <- (wins_nth b L t 0 T). apply nth_error_nth'. change (t < length b). rewrite L. exact T.
  - intros t T. pose proof (wins_next b (t - 16) L) as E. replace (t - 16 + 16) with t in E by lia. rewrite E. unfold next_w.
    rewrite !(wins_nth b L) by lia. replace (t - 16 + 14) with (t - 2) by lia. replace (t - 16 + 9) with (t - 7) by lia.
    replace (t - 16 + 1) with (t - 15) by lia. rewrite Nat.add_0_r.
    rewrite <- sg1_spec, <- sg0_spec by (apply wt_small; assumption). sums.
  - intros t T. rewrite R by exact T. apply round_spec, SM. lia.
  - change (firstn 64 K256) with K256. unfold compress, words_of. cbn [sa sb sc sd se sf sg sh combine map fst snd].
    repeat (f_equal; try sums).
Qed.
Lemma sha_compresses_fun s M s1 s2 : sha_compresses s M s1 -> sha_compresses s M s2 -> s1 = s2.
Proof.
  intros (K & W & S & HK & HM & HW & H0 & HS & ->) (K' & W' & S' & HK' & HM' & HW' & H0' & HS' & ->).
  assert (EK : forall t, t < 64 -> K t = K' t) by (intros t T; eapply constants_unique; [apply HK, T|apply HK', T]).
  assert (EW : forall n t, t < n -> t < 64 -> W t = W' t).
  { induction n as [|n IH]; intros t Tn T; [lia|]. destruct (Nat.lt_ge_cases t 16) as [X|X].
    - specialize (HM t X). specialize (HM' t X). congruence.
    - rewrite HW, HW' by lia. rewrite !(IH (t - 2)), (IH (t - 7)), !(IH (t - 15)), (IH (t - 16)) by lia. reflexivity. }
  assert (ES : forall t, t <= 64 -> S t = S' t).
  { induction t as [|t IH]; intros T; [congruence|]. specialize (HS t ltac:(lia)). specialize (HS' t ltac:(lia)).
    rewrite <- IH, <- EK, <- (EW 64) in HS' by lia. rewrite Nat.add_1_r in *. exact (sha_round_fun _ _ _ _ _ HS HS'). }
  rewrite ES by lia. reflexivity.
Qed.
Lemma through_fun (F : list N -> list N -> list N -> Prop) : (forall s b s1 s2, F s b s1 -> F s b s2 -> s1 = s2) ->
  forall s bs s1, through F s bs s1 -> forall s2, through F s bs s2 -> s1 = s2.
Proof.
  intros D s bs s1 T. induction T as [|s b s' bs s1 A T IH]; intros s2 T2; inversion T2; subst; [reflexivity|].
  match goal with X : F s b ?y |- _ => rewrite (D _ _ _ _ X A) in * end. auto.
Qed.
Lemma chain_through s bs calls s' : chain s bs calls s' -> Forall small (words_of s) -> Forall (fun b => length b = 16) bs -> Forall (Forall small) bs ->
  through sha_compresses (words_of s) bs (words_of s').
Proof.
  induction 1 as [|s b bs calls s' C IH]; intros F L B; [constructor|]. inversion_clear L. inversion_clear B.
  econstructor; [apply compress_spec; eassumption|]. apply IH; [apply compress_proper|assumption|assumption].
Qed.
Lemma sha_published_fun x d d' : sha_published x d -> sha_published x d' -> d = d'.
Proof.
  intros (s0 & p & bs & s & L & I & P & B & T & ->) (s0' & p' & bs' & s' & L' & I' & P' & B' & T' & ->).
  assert (s0 = s0').
  { apply (nth_ext _ _ 0%N 0%N); [congruence|]. intros t X. rewrite L in X. eapply constants_unique; [apply I, X|apply I', X]. }
  subst. rewrite (padded_unique _ _ _ P' P) in *. rewrite (blocks_of_inj _ _ _ B' B) in *.
  rewrite (through_fun _ sha_compresses_fun _ _ _ T _ T'). reflexivity.
Qed.
Lemma sha_published_ok x : sha_published x (b32 (sha256 x)).
Proof.
  destruct (sha_runs x) as (calls & p & bs & s & P & B & C & E). exists (words_of iv), p, bs, (words_of s).
  split; [reflexivity|split; [exact iv_ok|split; [exact P|split; [exact B|split; [|exact E]]]]].
  destruct B as (B1 & B2 & _). apply (chain_through _ _ _ _ C iv_proper B1 B2).
Qed.

(** ** RIPEMD-160 *)
Fixpoint group_params (i : nat) (k : N) (rs : list nat) (ss : list N) : list (nat * N * nat * N) :=
  match rs, ss with
  | r :: rs', s :: ss' => (i, k, r, s) :: group_params i k rs' ss'
  | _, _ => []
  end.
Fixpoint line_params (is : list nat) (ks : list N) (rss : list (list nat)) (sss : list (list N)) : list (nat * N * nat * N) :=
  match is, ks, rss, sss with
  | i :: is', k :: ks', rs :: rss', ss :: sss' => group_params i k rs ss ++ line_params is' ks' rss' sss'
  | _, _, _, _ => []
  end.
Definition pstep (X : list N) (x : rst) (p : nat * N * nat * N) : rst :=
  match p with (i, k, r, s) => rstep (rf i) k (nth r X 0%N) s x end.
Lemma rgroup_fold i k X : forall rs ss x, rgroup (rf i) k X rs ss x = fold_left (pstep X) (group_params i k rs ss) x.
Proof. induction rs as [|r rs IH]; intros ss x; [reflexivity|]. destruct ss as [|s ss]; [reflexivity|]. cbn [rgroup group_params fold_left pstep]. apply IH. Qed.
Lemma rline_fold X : forall is ks rss sss x, rline is ks rss sss X x = fold_left (pstep X) (line_params is ks rss sss) x.
Proof.
  induction is as [|i is IH]; intros ks rss sss x; [reflexivity|]. destruct ks as [|k ks]; [reflexivity|]. destruct rss as [|rs rss]; [reflexivity|].
  destruct sss as [|ss sss]; [reflexivity|]. cbn [rline line_params]. rewrite fold_left_app, <- rgroup_fold. apply IH.
Qed.
Definition shift_of (order : nat -> nat) (j : nat) : nat := nth (order j) (nth (j / 16) shifts []) 0.
Definition spec_params (order func : nat -> nat) (ks : list N) : list (nat * N * nat * N) :=
  map (fun j => (func (j / 16), nth (j / 16) ks 0%N, order j, N.of_nat (shift_of order j))) (seq 0 80).
Lemma left_params : line_params [0; 1; 2; 3; 4] left_k left_r left_s = spec_params order_left (fun r => r) left_k.
Proof. vm_compute. reflexivity. Qed.
Lemma right_params : line_params [4; 3; 2; 1; 0] right_k right_r right_s = spec_params order_right (fun r => 4 - r) right_k.
Proof. vm_compute. reflexivity. Qed.
Definition fine_order (order : nat -> nat) : bool := forallb (fun j => (order j <? 16) && (0 <? shift_of order j) && (shift_of order j <=? 32)) (seq 0 80).
Lemma rstep_small f k w n x : Forall small (rwords_of x) -> Forall small (rwords_of (rstep f k w n x)).
Proof.
  intros F. unfold rwords_of in *. cbn [rstep ra rb rc rd re]. repeat match goal with X : Forall _ (_ :: _) |- _ => inversion_clear X end.
  repeat constructor; try assumption; [apply N.mod_upper_bound; discriminate|apply rotr_lt; assumption].
Qed.
Lemma rstep_spec i k w n x : Forall small (rwords_of x) -> 0 < n <= 32 ->
  rmd_step (mixed i (rb x) (rc x) (rd x)) k w n (rwords_of x) (rwords_of (rstep (rf i) k w (N.of_nat n) x)).
Proof.
  intros F L. unfold rwords_of in *. cbn [rstep ra rb rc rd re rmd_step]. repeat match goal with X : Forall _ (_ :: _) |- _ => inversion_clear X end.
  rewrite <- rf_spec by assumption. change 10%N with (N.of_nat 10). rewrite (rotl_spec 10 (rc x)) by (try assumption; lia).
  rewrite (rotl_spec n) by (try exact L; apply N.mod_upper_bound; discriminate).
  f_equal. f_equal. rewrite add32_ww. do 3 f_equal. sums.
Qed.
Lemma nth_error_seq n : forall a j, j < n -> nth_error (seq a n) j = Some (a + j).
Proof. intros a j L. rewrite (nth_error_nth' _ 0) by (rewrite seq_length; exact L). rewrite seq_nth by exact L. reflexivity. Qed.
Lemma firstn_more {A} (l : list A) : forall j x, nth_error l j = Some x -> firstn (j + 1) l = firstn j l ++ [x].
Proof.
  induction l as [|a l IH]; intros [|j] x E; cbn [nth_error] in E; try discriminate; [injection E as ->; reflexivity|].
  cbn [Nat.add firstn app]. f_equal. apply IH, E.
Qed.
Lemma line_ok order func (is_k : nat -> N -> Prop) ks X s : fine_order order = true -> (forall r, r < 5 -> is_k r (nth r ks 0%N)) -> length X = 16 -> Forall small (rwords_of s) ->
  rmd_line order func is_k X (rwords_of s) (rwords_of (fold_left (pstep X) (spec_params order func ks) s)).
Proof.
  intros O K L F. set (P := spec_params order func ks). exists (fun r => nth r ks 0%N), (fun j => rwords_of (fold_left (pstep X) (firstn j P) s)).
  assert (N1 : forall j, j < 80 -> fold_left (pstep X) (firstn (j + 1) P) s = rstep (rf (func (j / 16))) (nth (j / 16) ks 0%N) (nth (order j) X 0%N) (N.of_nat (shift_of order j)) (fold_left (pstep X) (firstn j P) s)).
  { intros j J. rewrite (firstn_more P j (func (j / 16), nth (j / 16) ks 0%N, order j, N.of_nat (shift_of order j))).
    - rewrite fold_left_app. reflexivity.
    - unfold P, spec_params. rewrite (map_nth_error _ _ _ (nth_error_seq 80 0 j J)). reflexivity. }
  assert (SM : forall j, j <= 80 -> Forall small (rwords_of (fold_left (pstep X) (firstn j P) s))).
  { induction j as [|j IH]; intros J; [exact F|]. rewrite <- Nat.add_1_r, N1 by lia. apply rstep_small, IH. lia. }
  split; [exact K|split; [reflexivity|split]].
  - rewrite firstn_all2; [reflexivity|]. unfold P, spec_params. rewrite map_length, seq_length. lia.
  - intros j J. unfold fine_order in O. rewrite forallb_forall in O. specialize (O j). rewrite in_seq in O. specialize (O ltac:(lia)).
    rewrite !andb_true_iff, !Nat.ltb_lt, Nat.leb_le in O. destruct O as [[O1 O2] O3]. rewrite N1 by exact J.
    set (x := fold_left (pstep X) (firstn j P) s) in *. exists (ra x), (rb x), (rc x), (rd x), (re x), (nth (order j) X 0%N).
    split; [reflexivity|split; [apply nth_error_nth'; lia|]]. apply rstep_spec; [apply SM; lia|]. unfold shift_of in *. lia.
Qed.
Lemma rmd_step_fun f k w n s s1 s2 : rmd_step f k w n s s1 -> rmd_step f k w n s s2 -> s1 = s2.
Proof. unfold rmd_step. do 6 (destruct s as [|? s]; try contradiction). congruence. Qed.
Lemma rmd_line_fun order func (is_k : nat -> N -> Prop) X s s1 s2 : (forall r k k', is_k r k -> is_k r k' -> k = k') ->
  rmd_line order func is_k X s s1 -> rmd_line order func is_k X s s2 -> s1 = s2.
Proof.
  intros U (K & S & HK & H0 & HE & HS) (K' & S' & HK' & H0' & HE' & HS').
  assert (ES : forall j, j <= 80 -> S j = S' j).
  { induction j as [|j IH]; intros J; [congruence|].
    destruct (HS j ltac:(lia)) as (a & b & c & d & e & w & E & W & T). destruct (HS' j ltac:(lia)) as (a' & b' & c' & d' & e' & w' & E' & W' & T').
    rewrite <- IH in E', T' by lia. rewrite E in E'. injection E' as <- <- <- <- <-. rewrite W in W'. injection W' as <-.
    assert (EK : K (j / 16) = K' (j / 16)).
    { assert (j / 16 < 5) by (apply Nat.div_lt_upper_bound; lia). eapply U; [apply HK|apply HK']; assumption. }
    rewrite <- EK in T'. rewrite Nat.add_1_r in *. exact (rmd_step_fun _ _ _ _ _ _ _ T T'). }
  rewrite <- HE, <- HE'. apply ES. lia.
Qed.
Lemma k_left_ok r : r < 5 -> k_left r (nth r left_k 0%N).
Proof.
  intros L. destruct r as [|r]; [reflexivity|]. do 4 (destruct r as [|r]; [eexists; split; [reflexivity|apply rootb_ok; vm_compute; reflexivity]|]). lia.
Qed.
Lemma k_right_ok r : r < 5 -> k_right r (nth r right_k 0%N).
Proof.
  intros L. do 4 (destruct r as [|r]; [apply rootb_ok; vm_compute; reflexivity|]). destruct r; [reflexivity|lia].
Qed.
Lemma k_left_fun r k k' : k_left r k -> k_left r k' -> k = k'.
Proof. destruct r as [|r]; cbn [k_left]; [congruence|]. intros (p & E & R) (p' & E' & R'). rewrite E in E'. injection E' as <-. exact (root_unique _ _ _ _ _ R R'). Qed.
Lemma k_right_fun r k k' : k_right r k -> k_right r k' -> k = k'.
Proof. unfold k_right. destruct (nth_error small_primes r); [apply root_unique|congruence]. Qed.
Lemma rcompress_spec s X : Forall small (rwords_of s) -> length X = 16 -> rmd_compresses (rwords_of s) X (rwords_of (rcompress s X)).
Proof.
  intros F L. unfold rcompress. rewrite !rline_fold, left_params, right_params.
  pose proof (line_ok order_left (fun r => r) k_left left_k X s ltac:(vm_compute; reflexivity) k_left_ok L F) as A.
  pose proof (line_ok order_right (fun r => 4 - r) k_right right_k X s ltac:(vm_compute; reflexivity) k_right_ok L F) as B.
  set (l := fold_left (pstep X) (spec_params order_left (fun r => r) left_k) s) in *.
  set (r := fold_left (pstep X) (spec_params order_right (fun r => 4 - r) right_k) s) in *. clearbody l r. cbv zeta.
  exists (ra s), (rb s), (rc s), (rd s), (re s), (ra l), (rb l), (rc l), (rd l), (re l), (ra r), (rb r), (rc r), (rd r), (re r).
  split; [reflexivity|split; [exact A|split; [exact B|]]]. unfold rwords_of. cbn [ra rb rc rd re].
  f_equal; [sums|]. f_equal; [sums|]. f_equal; [sums|]. f_equal; [sums|]. f_equal. sums.
Qed.
Lemma rmd_compresses_fun s X s1 s2 : rmd_compresses s X s1 -> rmd_compresses s X s2 -> s1 = s2.
Proof.
  intros (h0 & h1 & h2 & h3 & h4 & a & b & c & d & e & a' & b' & c' & d' & e' & -> & A & B & ->)
    (g0 & g1 & g2 & g3 & g4 & p & q & r & t & u & p' & q' & r' & t' & u' & E & A' & B' & ->).
  injection E as <- <- <- <- <-. pose proof (rmd_line_fun _ _ _ _ _ _ _ k_left_fun A A') as EA. pose proof (rmd_line_fun _ _ _ _ _ _ _ k_right_fun B B') as EB.
  congruence.
Qed.
Lemma rchain_through s bs calls s' : rchain s bs calls s' -> Forall small (rwords_of s) -> Forall (fun b => length b = 16) bs ->
  through rmd_compresses (rwords_of s) bs (rwords_of s').
Proof.
  induction 1 as [|s b bs calls s' C IH]; intros F L; [constructor|]. inversion_clear L.
  econstructor; [apply rcompress_spec; eassumption|]. apply IH; [apply rcompress_proper|assumption].
Qed.
Lemma rmd_published_fun x d d' : rmd_published x d -> rmd_published x d' -> d = d'.
Proof.
  intros (s0 & p & bs & s & I & F & P & B & T & ->) (s0' & p' & bs' & s' & I' & F' & P' & B' & T' & ->).
  assert (s0 = s0') by (apply concat_le_inj; [assumption|assumption|congruence]).
  subst. rewrite (rpadded_unique _ _ _ P' P) in *. rewrite (rblocks_of_inj _ _ _ B' B) in *.
  rewrite (through_fun _ rmd_compresses_fun _ _ _ T _ T'). reflexivity.
Qed.
Lemma rmd_published_ok x : rmd_published x (ripemd160 x).
Proof.
  destruct (rmd_runs x) as (calls & p & bs & s & P & B & C & E). exists (rwords_of riv), p, bs, (rwords_of s).
  split; [reflexivity|split; [exact riv_proper|split; [exact P|split; [exact B|split; [|exact E]]]]].
  destruct B as (B1 & B2 & _). apply (rchain_through _ _ _ _ C riv_proper B1).
Qed.
