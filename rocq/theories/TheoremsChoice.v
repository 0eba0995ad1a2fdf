(** C115: which of two chosen values an id belongs to stays hidden. *)
From Verif Require Import Base BaseFacts Strict Engine SpecHash SpecCodec SpecEngine SpecMerkle SpecCount SpecGame SpecHideGame SpecIdGame SpecSalt SpecChoice.
From Verif Require Import StrictProofs EngineProofs CountProofs GameProofs GameHideProofs TheoremsMisc TheoremsGame TheoremsCount TheoremsHideGame TheoremsIdGame TheoremsSalt TheoremsOpen.
Local Open Scope nat_scope.

Lemma asked_other {A} (H H' : Hasher) x (p : prog A) : (forall s, s <> x -> H' s = H s) -> ~ In x (asked H p) -> asked H' p = asked H p.
Proof.
  intros E. induction p as [a|s k IH]; [reflexivity|]. cbn [asked In]. intros N. rewrite (E s) by tauto. f_equal. apply IH. tauto.
Qed.

(** ** One hash of a string which depends on the hash function: the first part of the computation determines it, up to a secret. *)
Section Late.
Context {T : Type} (n : nat) (U : list (list byte)) (UU : universe n U) (Fs : list (list bytes32)) (Cs : list bytes32) (Es : list N).
Hypothesis LF : lists_all Fs (fun f => length f = length U).
Hypothesis NC : NoDup Cs.
Hypothesis IC : forall c, In c Cs.
Hypothesis NE : NoDup Es.
Context (P1 : prog (bool + T)) (X : T -> N -> list bytes32 -> list byte) (P2 : T -> bytes32 -> prog bool) (q : nat) (dbl : list bytes32 -> bool).
Definition p_late (c : bytes32) : prog bool := andthen P1 (fun x => match x with inl a => Done a | inr t => P2 t c end).
Hypothesis few : forall c, modest n q (p_late c).
Hypothesis X_in : forall f t e, exec (table U f) P1 = inr t -> In e Es -> In (X t e f) U.
Hypothesis X_put : forall f t e c, exec (table U f) P1 = inr t -> In e Es -> X t e (put U f (X t e f) c) = X t e f.
Hypothesis X_inj : forall f t e e', exec (table U f) P1 = inr t -> dbl f = false -> In e Es -> In e' Es -> X t e f = X t e' f -> e = e'.

Definition late_pre (e : N) (f : list bytes32) : list byte :=
  match exec (table U f) P1 with inl _ => [] | inr t => X t e f end.
Definition early (f : list bytes32) : list (list byte) := asked (table U f) P1.
Definition fine_late (e : N) (f : list bytes32) : bool :=
  match exec (table U f) P1 with
  | inl _ => false
  | inr t => if in_dec (list_eq_dec Byte.byte_eq_dec) (late_pre e f) (early f) then false else true
  end.
Definition bad_late (e : N) (c : bytes32) (f : list bytes32) : N :=
  match exec (table U f) P1 with inl _ => 0%N | inr _ => bad U p_late (late_pre e f) c f end.
Lemma fine_put e f c : In e Es -> length f = length U -> fine_late e f = true ->
  In (late_pre e f) U /\ late_pre e (put U f (late_pre e f) c) = late_pre e f /\ fine_late e (put U f (late_pre e f) c) = true.
Proof.
  intros I L G. unfold fine_late in G. destruct (exec (table U f) P1) as [a|t] eqn:E; [discriminate|].
  destruct (in_dec _ (late_pre e f) (early f)) as [|NI]; [discriminate|].
  assert (PE : late_pre e f = X t e f) by (unfold late_pre; rewrite E; reflexivity).
  assert (OT : forall s, s <> late_pre e f -> table U (put U f (late_pre e f) c) s = table U f s) by (intros s N; apply put_other; congruence).
  assert (E' : exec (table U (put U f (late_pre e f) c)) P1 = inr t) by (rewrite <- E; apply (exec_other _ _ (late_pre e f)); [exact OT|exact NI]).
  assert (PE' : late_pre e (put U f (late_pre e f) c) = late_pre e f) by (unfold late_pre at 1; rewrite E', PE; apply (X_put f t e c E I)).
  split; [rewrite PE; apply (X_in f t e E I)|split; [exact PE'|]].
  unfold fine_late. rewrite E', PE'. destruct (in_dec _ _ _) as [J|]; [|reflexivity]. exfalso. apply NI. unfold early in *.
  rewrite (asked_other (table U f) _ (late_pre e f)) in J; [exact J|exact OT|exact NI].
Qed.
Lemma late_one e : In e Es ->
  near (sum (fun f => yes U p_late (table U f (late_pre e f)) f) Fs * N.of_nat (length Cs)) (sum (fun f => sum (fun c => yes U p_late c f) Cs) Fs)
       (sum (fun f => sum (fun c => bad_late e c f) Cs) Fs).
Proof.
  intros I. set (g := fun f => yes U p_late (table U f (late_pre e f)) f).
  assert (M : (sum g Fs * N.of_nat (length Cs))%N = sum (fun f => sum (fun c => g (if fine_late e f then put U f (late_pre e f) c else f)) Cs) Fs).
  { transitivity (sum (fun fc => g (fst fc)) (list_prod Fs Cs)).
    - rewrite sum_prod, <- sum_mul. apply sum_ext. intros f _. cbn [fst]. rewrite sum_same. lia.
    - rewrite (sum_bij _ (fun fc => if fine_late e (fst fc) then (put U (fst fc) (late_pre e (fst fc)) (snd fc), table U (fst fc) (late_pre e (fst fc))) else fc)).
      + rewrite sum_prod. apply sum_ext. intros f _. apply sum_ext. intros c _. cbn [fst snd]. destruct (fine_late e f); reflexivity.
      + apply NoDup_prod; [apply LF|exact NC].
      + intros [f c] J. cbn [fst snd]. destruct (fine_late e f) eqn:G; [|split; [exact J|cbn [fst]; rewrite G; reflexivity]].
        apply in_prod_iff in J as [J _]. apply (proj2 LF) in J. destruct (fine_put e f c I J G) as (IX & EX & GX). cbn [fst snd]. split.
        * apply in_prod_iff. split; [apply LF; rewrite put_length; exact J|apply IC].
        * rewrite GX, EX. f_equal; [apply put_back; [apply UU|exact J|exact IX]|apply put_same; [exact J|exact IX]]. }
  rewrite M. apply near_sum. intros f J. apply (proj2 LF) in J. apply near_sum. intros c _.
  unfold bad_late. destruct (exec (table U f) P1) as [a|t] eqn:E.
  - assert (G : fine_late e f = false) by (unfold fine_late; rewrite E; reflexivity). rewrite G. unfold g, yes, p_late. rewrite !exec_andthen, E. split; lia.
  - destruct (fine_late e f) eqn:G.
    + destruct (fine_put e f c I J G) as (IX & EX & GX). unfold g. rewrite EX, put_same by assumption.
      apply one_answer.
    + unfold fine_late in G. rewrite E in G. destruct (in_dec _ (late_pre e f) (early f)) as [K|]; [|discriminate].
      unfold bad. destruct (in_dec _ (late_pre e f) (asked (table U f) (p_late c))) as [_|NK].
      * unfold g, yes. cbn [ind]. split; destruct (exec _ _), (exec _ _); cbn; lia.
      * exfalso. apply NK. unfold p_late. rewrite asked_andthen. apply in_or_app. left. exact K.
Qed.
Lemma late_value :
  near (sum (fun e => sum (fun f => yes U p_late (table U f (late_pre e f)) f) Fs) Es * N.of_nat (length Cs))
       (sum (fun f => sum (fun c => yes U p_late c f) Cs) Fs * N.of_nat (length Es))
       ((N.of_nat q * N.of_nat (length Fs) + N.of_nat (length (filter dbl Fs)) * N.of_nat (length Es)) * N.of_nat (length Cs)).
Proof.
  assert (NR : near (sum (fun e => sum (fun f => yes U p_late (table U f (late_pre e f)) f) Fs * N.of_nat (length Cs))%N Es)
                   (sum (fun e => sum (fun f => sum (fun c => yes U p_late c f) Cs) Fs) Es)
                   (sum (fun e => sum (fun f => sum (fun c => bad_late e c f) Cs) Fs) Es)) by (apply near_sum; exact late_one).
  rewrite sum_mul, sum_same in NR.
  assert (Y : (sum (fun e => sum (fun f => sum (fun c => bad_late e c f) Cs) Fs) Es <=
    (N.of_nat q * N.of_nat (length Fs) + N.of_nat (length (filter dbl Fs)) * N.of_nat (length Es)) * N.of_nat (length Cs))%N).
  { rewrite sum_swap. rewrite (sum_ext _ (fun f => sum (fun c => sum (fun e => bad_late e c f) Es) Cs) Fs) by (intros; apply sum_swap).
    transitivity (sum (fun f : list bytes32 => (N.of_nat q + ind (dbl f) * N.of_nat (length Es)) * N.of_nat (length Cs))%N Fs).
    - apply sum_le. intros f _. rewrite (N.mul_comm _ (N.of_nat (length Cs))), <- sum_same. apply sum_le. intros c _.
      unfold bad_late. destruct (exec (table U f) P1) as [a|t] eqn:E; [rewrite sum_same; lia|].
      destruct (dbl f) eqn:G; cbn [ind].
      + eapply N.le_trans; [apply bad_any|]. lia.
      + rewrite N.mul_0_l, N.add_0_r. apply (bad_all U p_late n q Es late_pre); [apply few|exact NE|].
        intros e e' Ie Ie' EQ. unfold late_pre in EQ. rewrite E in EQ. apply (X_inj f t e e' E G Ie Ie' EQ).
    - rewrite sum_mul, sum_add, sum_same, sum_mul, sum_ind. lia. }
  apply (near_le _ _ _ _) with (2 := Y). rewrite (N.mul_comm _ (N.of_nat (length Es))). exact NR.
Qed.
End Late.

(** ** Dialogues as programs, up to the first pair for which no secret is given *)
Definition side_of (b : bool) (v w : described_value) : tag_bytes := let x := if b then v else w in (dv_tag x, dv_bytes x).
Definition open_pair : Type := (described_value * described_value * (bytes32 -> dialogue))%type.
Fixpoint p_stage (bs : list bool) (es : list N) (p : dialogue) {struct p} : prog (bool + open_pair) :=
  match p with
  | Verdict a => Done (inl a)
  | AskHash s k => Ask s (fun a => p_stage bs es (k a))
  | AskPair v w k =>
      match bs, es with
      | b :: bs', e :: es' => andthen (p_val (side_of b v w) e) (fun id => p_stage bs' es' (k id))
      | _, _ => Done (inr (v, w, k))
      end
  end.
Definition p_verdict (x : bool + open_pair) : prog bool := match x with inl a => Done a | inr _ => Done false end.
Definition p_dialogue (bs : list bool) (es : list N) (p : dialogue) : prog bool := andthen (p_stage bs es p) p_verdict.
Lemma stage_app H b2 l2 p : forall b1 l1, length l1 = length b1 -> exec H (p_stage (b1 ++ b2) (l1 ++ l2) p) =
  match exec H (p_stage b1 l1 p) with inl a => inl a | inr (v, w, k) => exec H (p_stage b2 l2 (AskPair v w k)) end.
Proof.
  induction p as [a|s k IH|v w k IH]; intros b1 l1 L; cbn [p_stage exec]; [reflexivity|apply IH, L|].
  destruct b1 as [|b b1], l1 as [|e l1]; try discriminate; [reflexivity|]. cbn [app]. rewrite !exec_andthen. apply IH. cbn in L. lia.
Qed.

(** What [fair] says about the tags and the bytes *)
Fixpoint fair_bytes (n : nat) (Es : list N) (q r : nat) (p : dialogue) {struct p} : Prop :=
  match p with
  | Verdict _ => True
  | AskHash s k => match q with O => False | Datatypes.S q' => length s <= n /\ forall a, fair_bytes n Es q' r (k a) end
  | AskPair v w k =>
      match r with
      | O => False
      | Datatypes.S r' => (forall b, good_secret n Es (side_of b v w)) /\ forall id, fair_bytes n Es q r' (k id)
      end
  end.
Lemma fair_fair_bytes n md S Es p : (forall e, In e Es <-> (e < S)%N) -> forall q r, fair n md S q r p -> fair_bytes n Es q r p.
Proof.
  intros IE. induction p as [a|s k IH|v w k IH]; intros q r F; cbn [fair fair_bytes] in *; [exact F| |].
  - destruct q as [|q]; [exact F|]. split; [apply F|]. intros a. apply IH, F.
  - destruct r as [|r]; [exact F|]. destruct F as (V & W & F). split; [|intros id; apply IH, F].
    intros b. destruct b; [apply (described_good n md S Es (dv_value v)); [exact IE|exact V]|apply (described_good n md S Es (dv_value w)); [exact IE|exact W]].
Qed.
Lemma stage_modest n Es p : forall q r es bs, fair_bytes n Es q r p -> Forall (fun e => In e Es) es ->
  modest n (q + 2 * r) (p_dialogue bs es p).
Proof.
  induction p as [a|s k IH|v w k IH]; intros q r es bs F I; cbn [fair_bytes] in F; [exact Logic.I| |].
  - destruct q as [|q]; [destruct F|]. cbn. split; [apply F|]. intros a. apply IH; [apply F|exact I].
  - destruct r as [|r]; [destruct F|]. unfold p_dialogue. cbn [p_stage]. destruct bs as [|b bs]; [exact Logic.I|]. destruct I as [|e es Ie I]; [exact Logic.I|].
    destruct F as [G F]. specialize (G b). replace (q + 2 * Datatypes.S r) with (2 + (q + 2 * r)) by lia. destruct G as (T & L & _). specialize (L e Ie).
    cbn [andthen p_val Nat.add modest]. split; [lia|]. intros th. rewrite !app_length, b32_length. split; [lia|]. intros id.
    apply (IH id q r es bs); [apply F|exact I].
Qed.
Definition p_after (b2 : list bool) (l2 : list N) (t : open_pair) (c : bytes32) : prog bool := p_dialogue b2 l2 (snd t c).
Lemma late_modest n Es b2 l2 c p : Forall (fun e => In e Es) l2 -> forall q r b1 l1, fair_bytes n Es q (Datatypes.S r) p -> Forall (fun e => In e Es) l1 ->
  length b1 <= r -> modest n (q + 2 * r) (p_late (p_stage b1 l1 p) (p_after b2 l2) c).
Proof.
  intros I2. induction p as [a|s k IH|v w k IH]; intros q r b1 l1 F I L; cbn [fair_bytes] in F; [exact Logic.I| |].
  - destruct q as [|q]; [destruct F|]. cbn. split; [apply F|]. intros a. apply IH; [apply F|exact I|exact L].
  - destruct F as [G F]. unfold p_late. cbn [p_stage].
    assert (LAST : modest n (q + 2 * r) (p_dialogue b2 l2 (k c))) by (apply (stage_modest n Es); [apply F|exact I2]).
    destruct b1 as [|b b1]; [exact LAST|]. destruct I as [|e l1 Ie I]; [exact LAST|].
    destruct r as [|r]; [cbn in L; lia|]. destruct (G b) as (T & LG & _). specialize (LG e Ie).
    replace (q + 2 * Datatypes.S r) with (2 + (q + 2 * r)) by lia.
    cbn [andthen p_val Nat.add modest]. split; [lia|]. intros th. rewrite !app_length, b32_length. split; [lia|]. intros id.
    apply (IH id q r b1 l1); [apply F|exact I|cbn in L; lia].
Qed.
Lemma stage_good H n Es p : forall q r bs es v w k b, fair_bytes n Es q r p -> exec H (p_stage bs es p) = inr (v, w, k) -> good_secret n Es (side_of b v w).
Proof.
  induction p as [a|s k IH|v w k IH]; intros q r bs es v' w' k' b F X; cbn [fair_bytes p_stage exec] in *; [discriminate| |].
  - destruct q as [|q]; [destruct F|]. apply (IH _ q r bs es v' w' k' b (proj2 F _) X).
  - destruct r as [|r]; [destruct F|]. destruct F as [G F]. destruct bs as [|b0 bs]; [injection X as <- <- <-; apply G|].
    destruct es as [|e es]; [injection X as <- <- <-; apply G|]. rewrite exec_andthen in X. apply (IH _ q r bs es v' w' k' b (F _) X).
Qed.

(** ** Changing the sides one by one *)
Section Sides.
Context (n : nat) (U : list (list byte)) (UU : universe n U) (Fs : list (list bytes32)) (Cs : list bytes32) (Es : list N).
Hypothesis LF : lists_all Fs (fun f => length f = length U).
Hypothesis NC : NoDup Cs.
Hypothesis IC : forall c, In c Cs.
Hypothesis NE : NoDup Es.
Hypothesis some : 0 < length Cs.
Context (q r : nat) (p : dialogue).
Hypothesis few : fair_bytes n Es q (Datatypes.S r) p.
Definition side_sum (bs : list bool) : N := sum (fun es => sum (fun f => ind (exec (table U f) (p_dialogue bs es p))) Fs) (tuples Es (length bs)).
Definition open_pair_of (b : bool) (t : open_pair) : tag_bytes := side_of b (fst (fst t)) (snd (fst t)).
Definition pair_pre (b : bool) (t : open_pair) (e : N) (f : list bytes32) : list byte := pre_of U (open_pair_of b t) e f.
Lemma side_sum_at b1 b b2 : side_sum (b1 ++ b :: b2) =
  sum (fun l1 => sum (fun l2 => sum (fun e => sum (fun f =>
    yes U (p_late (p_stage b1 l1 p) (p_after b2 l2)) (table U f (late_pre U (p_stage b1 l1 p) (pair_pre b) e f)) f) Fs) Es)
    (tuples Es (length b2))) (tuples Es (length b1)).
Proof.
  unfold side_sum. rewrite app_length. cbn [length]. rewrite tuples_sum_app. apply sum_ext. intros l1 I1. apply tuples_among in I1 as [L1 _].
  rewrite tuples_next. apply sum_ext. intros l2 _. apply sum_ext. intros e _. apply sum_ext. intros f _. unfold yes. f_equal.
  unfold p_dialogue, p_late, late_pre. rewrite !exec_andthen, (stage_app _ (b :: b2) (e :: l2) p b1 l1 L1).
  destruct (exec (table U f) (p_stage b1 l1 p)) as [a|[[v w] k]]; [reflexivity|]. cbn [p_stage]. rewrite exec_andthen, p_val_exec.
  unfold p_after, p_dialogue. rewrite exec_andthen. reflexivity.
Qed.
Lemma one_side b1 b b' b2 : length b1 + length b2 = r ->
  (side_sum (b1 ++ b :: b2) <= side_sum (b1 ++ b' :: b2) + 2 * (N.of_nat q + 2 * N.of_nat r) * N.of_nat (length Es) ^ N.of_nat r * N.of_nat (length Fs))%N.
Proof.
  intros R. rewrite !side_sum_at. set (qq := (N.of_nat q + 2 * N.of_nat r)%N). rewrite <- R.
  rewrite Nat2N.inj_add, N.pow_add_r, <- !tuples_length.
  replace (2 * qq * (N.of_nat (length (tuples Es (length b1))) * N.of_nat (length (tuples Es (length b2)))) * N.of_nat (length Fs))%N
    with (N.of_nat (length (tuples Es (length b1))) * (N.of_nat (length (tuples Es (length b2))) * (2 * qq * N.of_nat (length Fs))))%N
    by (set (a := length (tuples Es (length b1))); set (d := length (tuples Es (length b2))); lia).
  rewrite <- sum_same, <- sum_add. apply sum_le. intros l1 I1. rewrite <- sum_same, <- sum_add. apply sum_le. intros l2 I2.
  apply tuples_among in I1 as [L1 F1], I2 as [L2 F2].
  assert (M : forall c, modest n (q + 2 * r) (p_late (p_stage b1 l1 p) (p_after b2 l2) c)) by (intros c; apply (late_modest n Es); [exact F2|exact few|exact F1|lia]).
  assert (G : forall b0 f t, exec (table U f) (p_stage b1 l1 p) = inr t -> good_secret n Es (open_pair_of b0 t)).
  { intros b0 f [[v w] k] X. apply (stage_good _ n Es p q (Datatypes.S r) b1 l1 v w k b0 few X). }
  assert (V : forall b0, near (sum (fun e => sum (fun f => yes U (p_late (p_stage b1 l1 p) (p_after b2 l2)) (table U f (late_pre U (p_stage b1 l1 p) (pair_pre b0) e f)) f) Fs) Es * N.of_nat (length Cs))
    (sum (fun f => sum (fun c => yes U (p_late (p_stage b1 l1 p) (p_after b2 l2)) c f) Cs) Fs * N.of_nat (length Es))
    (N.of_nat (q + 2 * r) * N.of_nat (length Fs) * N.of_nat (length Cs))).
  { intros b0. pose proof (late_value n U UU Fs Cs Es LF NC IC NE (p_stage b1 l1 p) (pair_pre b0) (p_after b2 l2) _ (fun _ => false) M) as V.
    assert (Z : filter (fun _ : list bytes32 => false) Fs = []) by (clear; induction Fs; [reflexivity|assumption]).
    rewrite Z in V. change (N.of_nat (length [])) with 0%N in V. rewrite N.mul_0_l, N.add_0_r in V. apply V; clear V.
    - intros f t e E I. destruct (G b0 f t E) as (_ & LG & _). specialize (LG e I). apply (proj2 UU). unfold pair_pre, pre_of. rewrite !app_length, !b32_length. lia.
    - intros f t e c E I. destruct (G b0 f t E) as (TG & _). unfold pair_pre, pre_of. rewrite put_other; [reflexivity|].
      intros Q. apply (f_equal (@length byte)) in Q. rewrite !app_length, !b32_length in Q. lia.
    - intros f t e e' E _ I I' EQ. unfold pair_pre, pre_of in EQ. do 2 apply app_inv_head in EQ. apply (G b0 f t E); assumption. }
  destruct (V b) as [X _]. destruct (V b') as [_ Y].
  replace (N.of_nat (q + 2 * r)) with qq in X, Y by (unfold qq; lia).
  apply (N.mul_le_mono_pos_r _ _ (N.of_nat (length Cs))); [lia|].
  set (a := sum _ Es) in X |- *.
  set (d := sum (fun e => sum (fun f => yes U (p_late (p_stage b1 l1 p) (p_after b2 l2)) (table U f (late_pre U (p_stage b1 l1 p) (pair_pre b') e f)) f) Fs) Es) in Y |- *.
  set (m := sum (fun f => sum _ Cs) Fs) in X, Y. set (k := N.of_nat (length Cs)) in *. clearbody a d m k. lia.
Qed.
Lemma all_sides b b' : forall j i, i + j = Datatypes.S r ->
  (side_sum (repeat b' i ++ repeat b j) <= side_sum (repeat b' (Datatypes.S r)) +
    N.of_nat j * (2 * (N.of_nat q + 2 * N.of_nat r) * N.of_nat (length Es) ^ N.of_nat r * N.of_nat (length Fs)))%N.
Proof.
  induction j as [|j IH]; intros i E.
  - change (repeat b 0) with (@nil bool). rewrite app_nil_r. replace i with (Datatypes.S r) by lia. lia.
  - specialize (IH (Datatypes.S i) ltac:(lia)). change (repeat b (Datatypes.S j)) with (b :: repeat b j).
    pose proof (one_side (repeat b' i) b b' (repeat b j) ltac:(rewrite !repeat_length; lia)) as X.
    replace (repeat b' i ++ b' :: repeat b j) with (repeat b' (Datatypes.S i) ++ repeat b j) in X
      by (change (b' :: repeat b j) with ([b'] ++ repeat b j); rewrite app_assoc; f_equal; apply (repeat_cons i b')).
    rewrite Nat2N.inj_succ, N.mul_succ_l. lia.
Qed.
End Sides.

(** ** Dialogues and their programs *)
Lemma replies_iff n md S U f p first : forall q r es a, fair n md S q r p -> length es = r -> Forall (fun e => (e < S)%N) es ->
  replies (table U f) md first es p a <-> exec (table U f) (p_stage (repeat first r) es p) = inl a.
Proof.
  induction p as [a0|s k IH|v w k IH]; intros q r es a F L B; cbn [fair p_stage exec] in *.
  - split; [inversion 1; reflexivity|intros X; injection X as <-; constructor].
  - destruct q as [|q]; [destruct F|]. rewrite <- (IH _ q r es a (proj2 F _) L B). split; [inversion 1; assumption|apply re_hash].
  - destruct r as [|r]; [destruct F|]. destruct F as (V & W & F). destruct B as [|e es Be B]; [discriminate|]. injection L as L.
    cbn [repeat p_stage]. rewrite exec_andthen, p_val_exec.
    assert (ID : let x := dv_value (if first then v else w) in
      @commit_id (table U f) _ md (sv_commit x (table U f)) (sv_value x e) = Ret (table U f (pre_of U (side_of first v w) e f))).
    { destruct first; [apply (described_id n md S U f (dv_value v) (dv_tag v, dv_bytes v) e V Be)|apply (described_id n md S U f (dv_value w) (dv_tag w, dv_bytes w) e W Be)]. }
    rewrite <- (IH _ q r es a (F _) L B). split.
    + inversion 1; subst. match goal with X := dv_value _ |- _ => subst X end. cbv zeta in ID. match goal with X : commit_id _ _ _ = Ret _ |- _ => rewrite ID in X; injection X as <- end. assumption.
    + apply (re_pair (table U f) md first e es v w k _ a ID).
Qed.
Lemma stage_ends H n md S p : forall q r first es, fair n md S q r p -> length es = r -> exists a, exec H (p_stage (repeat first r) es p) = inl a.
Proof.
  induction p as [a|s k IH|v w k IH]; intros q r first es F L; cbn [fair p_stage exec] in *; [exists a; reflexivity| |].
  - destruct q as [|q]; [destruct F|]. apply (IH _ q r first es (proj2 F _) L).
  - destruct r as [|r]; [destruct F|]. destruct es as [|e es]; [discriminate|]. cbn [repeat]. rewrite exec_andthen.
    apply (IH _ q r first es (proj2 (proj2 F) _)). injection L as L. exact L.
Qed.
Lemma verdict_true H x : exec H (p_verdict x) = true <-> x = inl true.
Proof. destruct x as [[]|]; cbn; split; intros X; try discriminate X; try reflexivity. Qed.

Section SideCounts.
Context (n : nat) (U : list (list byte)) (Fs : list (list bytes32)) (LF : lists_all Fs (fun f => length f = length U)) (md : mode) (S : N) (Es : list N).
Hypothesis NE : NoDup Es.
Hypothesis IE : forall e, In e Es <-> (e < S)%N.
Context (q r : nat) (p : dialogue).
Hypothesis F : fair n md S q r p.
Lemma guesses_side_iff first ef : guesses_side U md S r first p ef <->
  In ef (list_prod (tuples Es r) Fs) /\ exec (table U (snd ef)) (p_dialogue (repeat first r) (fst ef) p) = true.
Proof.
  destruct ef as [es f]. cbn [fst snd]. unfold guesses_side, p_dialogue. rewrite in_prod_iff, tuples_among, (proj2 LF f), exec_andthen, verdict_true.
  assert (FE : Forall (fun e => (e < S)%N) es <-> Forall (fun e => In e Es) es) by (split; apply Forall_impl; intros e; apply IE).
  split.
  - intros (L & Le & B & X). apply (replies_iff n md S U f p first q r es true F Le B) in X. tauto.
  - intros (((Le & B) & L) & X). apply FE in B. split; [exact L|split; [exact Le|split; [exact B|]]].
    apply (replies_iff n md S U f p first q r es true F Le B). exact X.
Qed.
Lemma side_count first k : counts (guesses_side U md S r first p) k -> k = side_sum U Fs Es p (repeat first r).
Proof.
  intros C. unfold side_sum. rewrite repeat_length.
  rewrite (counts_ind _ _ (list_prod (tuples Es r) Fs) k (NoDup_prod _ _ (tuples_NoDup Es _ NE) (proj1 LF)) (guesses_side_iff first) C).
  apply sum_prod.
Qed.
Lemma side_count_exist first : counts (guesses_side U md S r first p) (side_sum U Fs Es p (repeat first r)).
Proof.
  unfold side_sum. rewrite repeat_length.
  rewrite <- (sum_prod (fun x => ind (exec (table U (snd x)) (p_dialogue (repeat first r) (fst x) p)))).
  apply counts_exist; [apply NoDup_prod; [apply tuples_NoDup, NE|apply LF]|]. apply guesses_side_iff.
Qed.
End SideCounts.

Lemma c115_choice : forall n U q r md S (p : dialogue) first k1 k2 (strings : universe n U) (allowed : fair n md S q r p)
  (yes1 : counts (guesses_side U md S r first p) k1) (yes2 : counts (guesses_side U md S r (negb first) p) k2),
  (k1 <= k2 + 2 * N.of_nat r * (N.of_nat q + 2 * (N.of_nat r - 1)) * S ^ (N.of_nat r - 1) * 2 ^ (256 * N.of_nat (length U)))%N.
Proof.
  intros n U q r md S p first k1 k2 UU F R1 R2.
  destruct (below S) as (Es & NE & IE & LE). destruct (c86_all (length U)) as (Fs & LF & NF). destruct all_ids as (Cs & NC & IC & LC).
  rewrite (side_count n U Fs LF md S Es NE IE q r p F first k1 R1), (side_count n U Fs LF md S Es NE IE q r p F (negb first) k2 R2).
  destruct r as [|r]; [cbn [repeat]; apply N.le_add_r|].
  assert (C0 : 0 < length Cs) by (assert (0 < 2 ^ 256)%N by reflexivity; lia).
  pose proof (all_sides n U UU Fs Cs Es LF NC IC NE C0 q r p (fair_fair_bytes n md S Es p IE q _ F) first (negb first) (Datatypes.S r) 0 eq_refl) as X.
  cbn [repeat app] in X. change (first :: repeat first r) with (repeat first (Datatypes.S r)) in X.
  change (negb first :: repeat (negb first) r) with (repeat (negb first) (Datatypes.S r)) in X. rewrite LE, NF in X.
  replace (N.of_nat (Datatypes.S r) - 1)%N with (N.of_nat r) by lia.
  match goal with |- (_ <= _ + ?z)%N => match type of X with (_ <= _ + ?y)%N => replace z with y by lia end end. exact X.
Qed.

Lemma c115_meaning : forall n U q r md S (p : dialogue) first (strings : universe n U) (allowed : fair n md S q r p),
  (forall f es (len_f : length f = length U) (len_es : length es = r) (secrets : Forall (fun e => (e < S)%N) es),
     exists a, replies (table U f) md first es p a /\ forall b, replies (table U f) md first es p b -> b = a) /\
  (exists k, counts (guesses_side U md S r first p) k) /\
  counts (guesses_side U md S r first (Verdict true)) (S ^ N.of_nat r * 2 ^ (256 * N.of_nat (length U))).
Proof.
  intros n U q r md S p first UU F. destruct (below S) as (Es & NE & IE & LE). destruct (c86_all (length U)) as (Fs & LF & NF).
  split; [|split].
  - intros f es _ L B. destruct (stage_ends (table U f) n md S p q r first es F L) as [a X]. exists a.
    split; [apply (replies_iff n md S U f p first q r es a F L B), X|]. intros b Y.
    apply (replies_iff n md S U f p first q r es b F L B) in Y. congruence.
  - eexists. apply (side_count_exist n U Fs LF md S Es NE IE q r p F first).
  - pose proof (side_count_exist n U Fs LF md S Es NE IE 0 r (Verdict true) Logic.I first) as C. unfold side_sum, p_dialogue in C. cbn [p_stage andthen p_verdict exec ind] in C.
    rewrite sum_same, sum_same, tuples_length, repeat_length, LE, NF, N.mul_1_r in C. exact C.
Qed.

Lemma c115_numbers : forall n U q r md (p : dialogue) first k1 k2 all (strings : universe n U) (allowed : fair n md (2 ^ 256) q r p)
  (work : (N.of_nat q <= 2 ^ 100)%N) (many : (N.of_nat r <= 2 ^ 20)%N)
  (yes1 : counts (guesses_side U md (2 ^ 256) r first p) k1) (yes2 : counts (guesses_side U md (2 ^ 256) r (negb first) p) k2)
  (total : counts (guesses_side U md (2 ^ 256) r first (Verdict true)) all),
  (k1 * 2 ^ 134 <= k2 * 2 ^ 134 + all)%N.
Proof.
  intros n U q r md p first k1 k2 all UU F Q M R1 R2 T.
  pose proof (c115_choice n U q r md (2 ^ 256) p first k1 k2 UU F R1 R2) as X.
  destruct (below (2 ^ 256)) as (Es & NE & IE & LE). destruct (c86_all (length U)) as (Fs & LF & NF).
  rewrite (side_count n U Fs LF md (2 ^ 256) Es NE IE 0 r (Verdict true) Logic.I first all T). unfold side_sum, p_dialogue. cbn [p_stage andthen p_verdict exec ind].
  rewrite sum_same, sum_same, tuples_length, repeat_length, LE, NF. clear T R1 R2 F.
  set (rr := N.of_nat r) in *. set (f := (2 ^ (256 * N.of_nat (length U)))%N) in *.
  destruct (N.eq_dec rr 0) as [Z|Z]; [rewrite Z in *; lia|].
  replace ((2 ^ 256) ^ rr)%N with (2 ^ 256 * (2 ^ 256) ^ (rr - 1))%N by (rewrite <- N.pow_succ_r'; f_equal; lia).
  set (y := ((2 ^ 256) ^ (rr - 1))%N) in *. assert (B : (2 * rr * (N.of_nat q + 2 * (rr - 1)) * 2 ^ 134 <= 2 ^ 256)%N).
  { assert (B1 : (N.of_nat q + 2 * (rr - 1) <= 2 ^ 101)%N) by lia.
    transitivity (2 * 2 ^ 20 * 2 ^ 101 * 2 ^ 134)%N; [|vm_compute; discriminate].
    apply N.mul_le_mono_r, N.mul_le_mono; [lia|exact B1]. }
  clearbody y f. apply (N.mul_le_mono_r _ _ (2 ^ 134)) in X. rewrite N.mul_add_distr_r in X.
  apply (N.mul_le_mono_r _ _ (y * f)) in B. generalize dependent (2 ^ 134)%N. generalize dependent (2 ^ 256)%N. intros. lia.
Qed.
