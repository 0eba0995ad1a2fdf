(** Lemmas for C117: several answers which depend on a first part of a computation, and what the rest notices if they are replaced. *)
From Verif Require Import Base BaseFacts SpecHash SpecCount CountProofs SpecGame GameProofs SpecHideGame GameHideProofs GameViewProofs.
From Verif Require Import TheoremsGame TheoremsSalt TheoremsChoice.
Local Open Scope nat_scope.

Lemma puts_firstn U f xs : forall cs, length xs <= length cs -> puts U f xs cs = puts U f xs (firstn (length xs) cs).
Proof. induction xs as [|x xs IH]; intros [|c cs] L; cbn [puts length firstn] in *; try reflexivity. rewrite <- IH by lia. reflexivity. Qed.
Lemma first_part {A} m (l l' : list A) : length l = m -> firstn m (l ++ l') = l.
Proof. intros <-. rewrite firstn_app, Nat.sub_diag, firstn_O, app_nil_r. apply firstn_all. Qed.
Lemma last_part {A} m (l l' : list A) : length l = m -> skipn m (l ++ l') = l'.
Proof. intros <-. rewrite skipn_app, Nat.sub_diag, skipn_all. reflexivity. Qed.

Section LateView.
Context {T V : Type} (n : nat) (U : list (list byte)) (UU : universe n U) (Fs : list (list bytes32)) (Cs : list bytes32) (Es : list N).
Hypothesis LF : lists_all Fs (fun f => length f = length U).
Hypothesis NC : NoDup Cs.
Hypothesis IC : forall c, In c Cs.
Hypothesis NE : NoDup Es.
Context (P1 : prog (bool + T)) (M : nat) (X : T -> N -> list bytes32 -> list (list byte)) (vw : T -> list bytes32 -> list bytes32 -> V).
Context (P2 : T -> V -> prog bool) (q : nat) (cl : T -> list bytes32 -> bool).
Definition p_show (x : option V) : prog bool :=
  andthen P1 (fun y => match y with inl a => Done a | inr t => match x with Some v => P2 t v | None => Done false end end).
Hypothesis few : forall x, modest n q (p_show x).
Hypothesis X_in : forall f t e, exec (table U f) P1 = inr t -> incl (X t e f) U /\ length (X t e f) <= M.
Hypothesis X_distinct : forall f t e, exec (table U f) P1 = inr t -> cl t f = true -> In e Es -> NoDup (X t e f).
Hypothesis X_stays : forall f t e c, exec (table U f) P1 = inr t -> cl t f = true -> In e Es -> X t e (puts U f (X t e f) c) = X t e f.
Hypothesis vw_stays : forall f t e c d, exec (table U f) P1 = inr t -> cl t f = true -> In e Es -> vw t (puts U f (X t e f) c) d = vw t f d.
Hypothesis vw_more : forall f t e cs r, exec (table U f) P1 = inr t -> length cs = length (X t e f) -> vw t f (cs ++ r) = vw t f cs.
Hypothesis X_apart : forall f t e e' x, exec (table U f) P1 = inr t -> cl t f = true -> In e Es -> In e' Es -> In x (X t e f) -> In x (X t e' f) -> e = e'.

Definition lv (f ds : list bytes32) : option V := match exec (table U f) P1 with inl _ => None | inr t => Some (vw t f ds) end.
Definition lX (e : N) (f : list bytes32) : list (list byte) := match exec (table U f) P1 with inl _ => [] | inr t => X t e f end.
Definition lcl (f : list bytes32) : bool := match exec (table U f) P1 with inl _ => true | inr t => cl t f end.
Definition untouched (e : N) (f : list bytes32) : bool :=
  negb (existsb (fun x => if in_dec str_dec x (asked (table U f) P1) then true else false) (lX e f)).
Definition lgood (e : N) (f : list bytes32) : bool := lcl f && untouched e f.
Notation Ct := (tuples Cs M).
Notation ans := (answer U p_show lv).
Notation tch := (touches U p_show lv).
Notation real e f := (ans (map (table U f) (lX e f)) f f).

Lemma untouched_iff e f : untouched e f = true <-> forall x, In x (lX e f) -> ~ In x (asked (table U f) P1).
Proof.
  unfold untouched. rewrite negb_true_iff. split.
  - intros E x I J. assert (existsb (fun x => if in_dec str_dec x (asked (table U f) P1) then true else false) (lX e f) = true); [|congruence].
    apply existsb_exists. exists x. split; [exact I|]. destruct (in_dec _ _ _); [reflexivity|contradiction].
  - intros E. apply Bool.not_true_is_false. intros X0. apply existsb_exists in X0 as (x & I & B). destruct (in_dec _ _ _) as [J|]; [|discriminate]. apply (E x I J).
Qed.
Lemma lX_in e f : incl (lX e f) U /\ length (lX e f) <= M.
Proof. unfold lX. destruct (exec _ P1) as [a|t] eqn:E; [split; [intros x []|cbn; lia]|apply X_in, E]. Qed.
Section Fixed.
Variable e : N.
Hypothesis Ie : In e Es.
Section GoodF.
Variable f : list bytes32.
Hypothesis G : lgood e f = true.
Lemma good_exec c : exec (table U (puts U f (lX e f) c)) P1 = exec (table U f) P1.
Proof.
  apply andb_true_iff in G as [_ Un]. apply (exec_others _ _ (lX e f)); [intros s N; apply puts_other, N|]. apply untouched_iff, Un.
Qed.
Lemma lX_distinct : NoDup (lX e f).
Proof. apply andb_true_iff in G as [C _]. unfold lX, lcl in *. destruct (exec _ P1) as [a|t] eqn:E; [constructor|]. apply (X_distinct f t e E C Ie). Qed.
Lemma lX_stays c : lX e (puts U f (lX e f) c) = lX e f.
Proof.
  pose proof (good_exec c) as GE. apply andb_true_iff in G as [C _]. unfold lX at 1. rewrite GE. unfold lX, lcl in *.
  destruct (exec (table U f) P1) as [a|t] eqn:E; [reflexivity|]. apply (X_stays f t e c E C Ie).
Qed.
Lemma lv_stays c d : lv (puts U f (lX e f) c) d = lv f d.
Proof.
  pose proof (good_exec c) as GE. apply andb_true_iff in G as [C _]. unfold lv. rewrite GE. unfold lX, lcl in *.
  destruct (exec (table U f) P1) as [a|t] eqn:E; [reflexivity|]. f_equal. apply (vw_stays f t e c d E C Ie).
Qed.
End GoodF.
Lemma lv_more f cs r : length cs = length (lX e f) -> lv f (cs ++ r) = lv f cs.
Proof. unfold lv, lX. destruct (exec _ P1) as [a|t] eqn:E; [reflexivity|]. intros L. f_equal. apply (vw_more f t e cs r E L). Qed.

Definition lswap (fc : list bytes32 * list bytes32) : list bytes32 * list bytes32 :=
  (puts U (fst fc) (lX e (fst fc)) (snd fc), map (table U (fst fc)) (lX e (fst fc)) ++ skipn (length (lX e (fst fc))) (snd fc)).
Notation Gd := (list_prod (filter (lgood e) Fs) Ct).
Notation All := (list_prod Fs Ct).
Lemma in_lGd f c : In (f, c) Gd <-> (length f = length U /\ lgood e f = true) /\ length c = M.
Proof. rewrite in_prod_iff, filter_In, (proj2 LF f), (tuples_in Cs M IC c). tauto. Qed.
Lemma in_lAll f c : In (f, c) All <-> length f = length U /\ length c = M.
Proof. rewrite in_prod_iff, (proj2 LF f), (tuples_in Cs M IC c). tauto. Qed.
Lemma lswap_swap fc : In fc Gd -> lswap (lswap fc) = fc.
Proof.
  destruct fc as [f c]. intros I. apply in_lGd in I as [[L G] LC]. destruct (lX_in e f) as [I1 I2]. pose proof (lX_distinct f G) as ND.
  unfold lswap. cbn [fst snd]. rewrite (lX_stays f G c).
  set (xs := lX e f) in *. rewrite (puts_firstn U f xs c) by lia.
  assert (LK : length (firstn (length xs) c) = length xs) by (rewrite firstn_length; lia). f_equal.
  - rewrite puts_firstn by (rewrite app_length, map_length; lia). rewrite first_part by apply map_length.
    apply puts_back; [apply UU|exact L|exact I1|exact ND|exact LK].
  - rewrite (puts_same U f xs _ L I1 ND LK). rewrite last_part by apply map_length. apply firstn_skipn.
Qed.
Lemma lswap_in fc : In fc Gd -> In (lswap fc) All.
Proof.
  destruct fc as [f c]. intros I. apply in_lGd in I as [[L G] LC]. apply in_lAll. cbn [fst snd]. rewrite puts_length, app_length, map_length, skipn_length.
  pose proof (proj2 (lX_in e f)). split; [exact L|lia].
Qed.
Lemma NoDup_lGd : NoDup Gd.
Proof. apply NoDup_prod; [apply NoDup_filter, LF|apply tuples_NoDup, NC]. Qed.
Lemma NoDup_lAll : NoDup All.
Proof. apply NoDup_prod; [apply LF|apply tuples_NoDup, NC]. Qed.
Lemma NoDup_limage : NoDup (map lswap Gd).
Proof.
  apply NoDup_map_on; [exact NoDup_lGd|]. intros x y Ix Iy E. rewrite <- (lswap_swap x Ix), <- (lswap_swap y Iy), E. reflexivity.
Qed.
Lemma limage_incl : incl (map lswap Gd) All.
Proof. intros y I. apply in_map_iff in I as (x & <- & I). apply lswap_in, I. Qed.
Definition lprogrammed (fc : list bytes32 * list bytes32) : N := ans (snd fc) (fst fc) (puts U (fst fc) (lX e (fst fc)) (snd fc)).
Lemma lswap_real fc : In fc Gd -> lprogrammed (lswap fc) = real e (fst fc).
Proof.
  intros I. pose proof (lswap_swap fc I) as S. destruct fc as [f c]. apply in_lGd in I as [[L G] LC].
  unfold lprogrammed. unfold lswap in *. cbn [fst snd] in *. injection S as S1 S2. rewrite S1. unfold answer.
  rewrite (lv_stays f G c), lv_more by apply map_length. reflexivity.
Qed.
Notation lmissed := (N.of_nat (length (filter (fun f => negb (lgood e f)) Fs))).
Lemma llost : (N.of_nat (length All) = N.of_nat (length (map lswap Gd)) + lmissed * N.of_nat (length Ct))%N.
Proof.
  rewrite map_length, !prod_length, (length_split (lgood e) Fs). rewrite !Nat2N.inj_mul, Nat2N.inj_add. ring.
Qed.
Lemma one_show :
  near (sum (fun f => real e f) Fs * N.of_nat (length Ct)) (sum (fun f => sum (fun c => ans c f f) Ct) Fs)
       (sum (fun f => sum (fun c => ind (tch (lX e f) c f) + ind (negb (lgood e f)))%N Ct) Fs).
Proof.
  assert (SE : (sum (fun f => sum (fun c => ind (tch (lX e f) c f) + ind (negb (lgood e f)))%N Ct) Fs =
    sum (fun f => sum (fun c => ind (tch (lX e f) c f)) Ct) Fs + lmissed * N.of_nat (length Ct))%N).
  { rewrite <- sum_ind, <- sum_mul, <- sum_add. apply sum_ext. intros f _. rewrite sum_add, sum_same. lia. }
  rewrite SE. clear SE.
  set (r := sum (fun f => real e f) Fs). set (i := sum (fun f => sum (fun c => ans c f f) Ct) Fs).
  set (b := sum (fun f => sum (fun c => ind (tch (lX e f) c f)) Ct) Fs).
  set (g0 := fun fc : list bytes32 * list bytes32 => ans (snd fc) (fst fc) (fst fc)).
  set (bd := fun fc : list bytes32 * list bytes32 => ind (tch (lX e (fst fc)) (snd fc) (fst fc))).
  assert (Ei : i = sum g0 All) by (unfold i, g0; rewrite sum_prod; reflexivity).
  assert (Eb : b = sum bd All) by (unfold b, bd; rewrite sum_prod; reflexivity).
  assert (Er : (r * N.of_nat (length Ct))%N = sum (fun fc => real e (fst fc)) All).
  { unfold r. rewrite sum_prod, <- sum_mul. apply sum_ext. intros f _. cbn [fst]. rewrite sum_same. lia. }
  assert (Eg : sum lprogrammed (map lswap Gd) = sum (fun fc => real e (fst fc)) Gd).
  { rewrite sum_map. apply sum_ext. intros fc I. apply lswap_real, I. }
  destruct (sum_part pair_dec (fun fc => real e (fst fc)) Gd All NoDup_lGd NoDup_lAll) as [G1 G2].
  { intros [f c] I. apply in_lGd in I as [[L _] LC]. apply in_lAll. auto. }
  { intros; apply ind_le. }
  destruct (sum_part pair_dec g0 (map lswap Gd) All NoDup_limage NoDup_lAll limage_incl) as [H1 H2]; [intros; apply ind_le|].
  destruct (sum_part pair_dec bd (map lswap Gd) All NoDup_limage NoDup_lAll limage_incl) as [B1 _]; [intros; apply ind_le|].
  assert (P1' : (sum lprogrammed (map lswap Gd) <= sum g0 (map lswap Gd) + sum bd (map lswap Gd))%N).
  { rewrite <- sum_add. apply sum_le. intros [f c] _. apply answers_differ. }
  assert (P2' : (sum g0 (map lswap Gd) <= sum lprogrammed (map lswap Gd) + sum bd (map lswap Gd))%N).
  { rewrite <- sum_add. apply sum_le. intros [f c] _. apply answers_differ. }
  pose proof llost as Lo. pose proof (map_length lswap Gd) as ML.
  unfold near. rewrite Er, Ei, Eb. rewrite Eg in P1', P2'. rewrite <- ML in G2.
  set (s1 := sum (fun fc => real e (fst fc)) Gd) in *. set (s2 := sum (fun fc => real e (fst fc)) All) in *.
  set (s3 := sum g0 (map lswap Gd)) in *. set (s4 := sum g0 All) in *. set (s5 := sum bd (map lswap Gd)) in *. set (s6 := sum bd All) in *.
  set (n1 := N.of_nat (length All)) in *. set (n2 := N.of_nat (length (map lswap Gd))) in *. set (n3 := (lmissed * _)%N) in *.
  clearbody s1 s2 s3 s4 s5 s6 n1 n2 n3. clear - G1 G2 H1 H2 B1 P1' P2' Lo. lia.
Qed.
End Fixed.

(** All secrets *)
Lemma lX_apart f e e' x : lcl f = true -> In e Es -> In e' Es -> In x (lX e f) -> In x (lX e' f) -> e = e'.
Proof. unfold lcl, lX. destruct (exec _ P1) as [a|t] eqn:E; [intros _ _ _ []|]. intros C. apply (X_apart f t e e' x E C). Qed.
Lemma early_touch e c f : untouched e f = false -> tch (lX e f) c f = true.
Proof.
  unfold untouched. rewrite negb_false_iff. intros B. apply existsb_exists in B as (x & I & B). destruct (in_dec _ _ _) as [J|]; [|discriminate].
  apply existsb_exists. exists x. split; [exact I|]. destruct (in_dec _ _ _) as [_|N]; [reflexivity|]. exfalso. apply N. unfold p_show. rewrite asked_andthen.
  apply in_or_app. left. exact J.
Qed.
Lemma show_value :
  near (sum (fun e => sum (fun f => real e f) Fs) Es * N.of_nat (length Ct)) (sum (fun f => sum (fun c => ans c f f) Ct) Fs * N.of_nat (length Es))
    (2 * (N.of_nat q * N.of_nat (length Fs) + N.of_nat (length (filter (fun f => negb (lcl f)) Fs)) * N.of_nat (length Es)) * N.of_nat (length Ct)).
Proof.
  assert (NR : near (sum (fun e => sum (fun f => real e f) Fs * N.of_nat (length Ct))%N Es) (sum (fun e => sum (fun f => sum (fun c => ans c f f) Ct) Fs) Es)
    (sum (fun e => sum (fun f => sum (fun c => ind (tch (lX e f) c f) + ind (negb (lgood e f)))%N Ct) Fs) Es)) by (apply near_sum; intros e I; apply one_show, I).
  rewrite sum_mul, sum_same, (N.mul_comm (N.of_nat (length Es))) in NR. apply (near_le _ _ _ _ NR). clear NR.
  rewrite sum_swap.
  apply (N.le_trans _ (sum (fun f => 2 * (N.of_nat q + ind (negb (lcl f)) * N.of_nat (length Es)) * N.of_nat (length Ct))%N Fs)).
  - apply sum_le. intros f If. apply LF in If. rewrite sum_swap, (N.mul_comm _ (N.of_nat (length Ct))), <- sum_same. apply sum_le. intros c _.
    destruct (lcl f) eqn:G; cbn [negb ind].
    + rewrite N.mul_0_l, N.add_0_r.
      pose proof (touches_all U p_show lv lcl n q Es lX few NE (fun f e e' x _ => lX_apart f e e' x) f c If G) as TA.
      rewrite sum_add.
      assert (MG : (sum (fun e => ind (negb (lgood e f))) Es <= sum (fun e => ind (tch (lX e f) c f)) Es)%N).
      { apply sum_le. intros e _. unfold lgood. rewrite G. cbn [andb]. destruct (untouched e f) eqn:Un; cbn [negb ind]; [lia|]. rewrite (early_touch e c f Un). cbn. lia. }
      set (a := sum (fun e => ind (negb (lgood e f))) Es) in *. set (d := sum _ Es) in *. clearbody a d. lia.
    + rewrite N.mul_1_l. apply (N.le_trans _ (sum (fun _ => 2%N) Es)).
      * apply sum_le. intros e _. pose proof (ind_le (tch (lX e f) c f)). pose proof (ind_le (negb (lgood e f))). lia.
      * rewrite sum_same. lia.
  - rewrite sum_mul.
    assert (E2 : sum (fun f => 2 * (N.of_nat q + ind (negb (lcl f)) * N.of_nat (length Es)))%N Fs =
      (2 * sum (fun f => N.of_nat q + ind (negb (lcl f)) * N.of_nat (length Es)) Fs)%N).
    { rewrite N.mul_comm, <- sum_mul. apply sum_ext. intros f _. lia. }
    rewrite E2, sum_add, sum_same, sum_mul, sum_ind. lia.
Qed.
End LateView.
