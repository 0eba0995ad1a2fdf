(** Facts about the vocabulary of [Base.v]. *)
From Verif Require Import Base.
From Coq Require Import Eqdep_dec ZArith.
Local Open Scope N_scope.

Lemma byte_to_N_lt b : Byte.to_N b < 256.
Proof. destruct b; reflexivity. Qed.

Lemma byte_of_N_to_N n : Byte.to_N (byte_of_N n) = n mod 256.
Proof.
  unfold byte_of_N.
  assert (H : n mod 256 < 256) by (apply N.mod_lt; discriminate).
  remember (n mod 256) as m eqn:E; clear E.
  destruct (Byte.of_N m) as [b|] eqn:Eb.
  - apply Byte.to_of_N. exact Eb.
  - apply Byte.of_N_None_iff in Eb. lia.
Qed.

Lemma byte_of_N_of b : byte_of_N (Byte.to_N b) = b.
Proof.
  unfold byte_of_N. rewrite N.mod_small by apply byte_to_N_lt.
  rewrite Byte.of_to_N. reflexivity.
Qed.

Lemma byte_of_N_inj a b : a < 256 -> b < 256 -> byte_of_N a = byte_of_N b -> a = b.
Proof.
  intros Ha Hb H. apply (f_equal Byte.to_N) in H. rewrite !byte_of_N_to_N in H.
  rewrite !N.mod_small in H by assumption. exact H.
Qed.

Lemma byte_to_N_inj a b : Byte.to_N a = Byte.to_N b -> a = b.
Proof. intros H. rewrite <- (byte_of_N_of a), <- (byte_of_N_of b), H. reflexivity. Qed.

Lemma le_val_le k v : le_val (le k v) = v mod 256 ^ N.of_nat k.
Proof.
  revert v; induction k as [|k IH]; intros v; cbn [le le_val].
  - rewrite N.mod_1_r. reflexivity.
  - rewrite IH, byte_of_N_to_N, Nat2N.inj_succ, N.pow_succ_r'.
    rewrite N.mod_mul_r; [lia | lia | apply N.pow_nonzero; lia].
Qed.

Lemma le_val_bound l : le_val l < 256 ^ N.of_nat (length l).
Proof.
  induction l as [|b r IH]; cbn [le_val length].
  - reflexivity.
  - rewrite Nat2N.inj_succ, N.pow_succ_r'. pose proof (byte_to_N_lt b). lia.
Qed.

Lemma le_of_val l : le (length l) (le_val l) = l.
Proof.
  induction l as [|b r IH]; cbn [le_val length le]; [reflexivity|].
  f_equal.
  - unfold byte_of_N. replace ((Byte.to_N b + 256 * le_val r) mod 256) with (Byte.to_N b).
    + rewrite Byte.of_to_N. reflexivity.
    + rewrite N.mul_comm, N.mod_add by lia. symmetry. apply N.mod_small, byte_to_N_lt.
  - replace ((Byte.to_N b + 256 * le_val r) / 256) with (le_val r); [exact IH|].
    rewrite N.mul_comm, N.div_add by lia. rewrite N.div_small by apply byte_to_N_lt. reflexivity.
Qed.

Lemma le_inj k v w :
  v < 256 ^ N.of_nat k -> w < 256 ^ N.of_nat k -> le k v = le k w -> v = w.
Proof.
  intros Hv Hw H. apply (f_equal le_val) in H. rewrite !le_val_le in H.
  rewrite !N.mod_small in H by assumption. exact H.
Qed.

(** ** Equality and order of byte strings *)
Lemma byte_eqb_eq a b : Byte.eqb a b = true <-> a = b.
Proof.
  split; intros H.
  - apply Byte.byte_dec_bl. exact H.
  - apply Byte.byte_dec_lb. exact H.
Qed.
Lemma byte_eqb_refl a : Byte.eqb a a = true.
Proof. apply byte_eqb_eq. reflexivity. Qed.

Lemma bytes_eqb_eq a b : bytes_eqb a b = true <-> a = b.
Proof.
  revert b; induction a as [|x a IH]; intros [|y b]; cbn; split; intros H;
    try reflexivity; try discriminate.
  - apply andb_true_iff in H as [H1 H2]. apply byte_eqb_eq in H1. apply IH in H2. congruence.
  - injection H as -> ->. rewrite byte_eqb_refl. apply IH. reflexivity.
Qed.

Lemma b32_eqb_eq a b : b32_eqb a b = true <-> a = b.
Proof.
  unfold b32_eqb. rewrite bytes_eqb_eq. split.
  - apply b32_inj.
  - intros ->. reflexivity.
Qed.
Lemma b32_eqb_refl a : b32_eqb a a = true.
Proof. apply b32_eqb_eq. reflexivity. Qed.
Lemma b32_eqb_neq a b : b32_eqb a b = false <-> a <> b.
Proof.
  rewrite <- b32_eqb_eq. destruct (b32_eqb a b); split; congruence.
Qed.
Lemma b32_eq_dec (a b : bytes32) : {a = b} + {a <> b}.
Proof.
  destruct (b32_eqb a b) eqn:E; [left; apply b32_eqb_eq; exact E|right].
  apply b32_eqb_neq; exact E.
Qed.
Lemma bytes_eq_dec (a b : list byte) : {a = b} + {a <> b}.
Proof.
  destruct (bytes_eqb a b) eqn:E; [left; apply bytes_eqb_eq; exact E|right].
  intros H. apply bytes_eqb_eq in H. congruence.
Qed.

(** A strict total order given as a boolean function. *)
Class StrictOrd {K : Type} (ltb : K -> K -> bool) : Prop := {
  so_irrefl : forall a, ltb a a = false;
  so_trans : forall a b c, ltb a b = true -> ltb b c = true -> ltb a c = true;
  so_total : forall a b, ltb a b = false -> ltb b a = false -> a = b
}.

Lemma bytes_ltb_irrefl a : bytes_ltb a a = false.
Proof.
  induction a as [|x a IH]; cbn; [reflexivity|].
  rewrite N.ltb_irrefl, IH, andb_false_r. reflexivity.
Qed.
Lemma bytes_ltb_trans a b c :
  bytes_ltb a b = true -> bytes_ltb b c = true -> bytes_ltb a c = true.
Proof.
  revert b c; induction a as [|x a IH]; intros [|y b] [|z c]; cbn; intros H1 H2;
    try discriminate; try reflexivity.
  apply orb_true_iff in H1, H2. apply orb_true_iff.
  rewrite N.ltb_lt, andb_true_iff, byte_eqb_eq in *.
  destruct H1 as [H1|[-> H1]], H2 as [H2|[-> H2]]; try (left; lia).
  right; split; [reflexivity|]. eapply IH; eassumption.
Qed.
Lemma bytes_ltb_total a b : bytes_ltb a b = false -> bytes_ltb b a = false -> a = b.
Proof.
  revert b; induction a as [|x a IH]; intros [|y b]; cbn; intros H1 H2;
    try discriminate; try reflexivity.
  apply orb_false_iff in H1, H2. destruct H1 as [H1 H3], H2 as [H2 H4].
  apply N.ltb_ge in H1, H2. assert (E : x = y) by (apply byte_to_N_inj; lia).
  subst y. rewrite byte_eqb_refl in H3, H4. cbn in *. f_equal. apply IH; assumption.
Qed.

Global Instance b32_ord : StrictOrd b32_ltb.
Proof.
  unfold b32_ltb. split; intros.
  - apply bytes_ltb_irrefl.
  - eapply bytes_ltb_trans; eassumption.
  - apply b32_inj, bytes_ltb_total; assumption.
Qed.
Global Instance N_ord : StrictOrd N.ltb.
Proof.
  split; intros.
  - apply N.ltb_irrefl.
  - apply N.ltb_lt in H, H0. apply N.ltb_lt. lia.
  - apply N.ltb_ge in H, H0. lia.
Qed.
Global Instance nat_ord : StrictOrd Nat.ltb.
Proof.
  split; intros.
  - apply Nat.ltb_irrefl.
  - apply Nat.ltb_lt in H, H0. apply Nat.ltb_lt. lia.
  - apply Nat.ltb_ge in H, H0. lia.
Qed.

(** ** 32-byte arrays *)
Lemma b32_of_some l (H : length l = 32%nat) : exists b, b32_of l = Some b /\ b32 b = l.
Proof.
  unfold b32_of. destruct (bool_dec _ true) as [e|e].
  - eexists; split; reflexivity.
  - exfalso; apply e. rewrite H. reflexivity.
Qed.
Lemma b32_of_inv l b : b32_of l = Some b -> b32 b = l.
Proof. unfold b32_of. destruct (bool_dec _ true) as [e|e]; intros H; inversion H; reflexivity. Qed.
Lemma b32_of_b32 (a : bytes32) : b32_of (b32 a) = Some a.
Proof.
  destruct (b32_of_some (b32 a) (b32_length a)) as [b [H1 H2]]. rewrite H1.
  f_equal. apply b32_inj. exact H2.
Qed.
Lemma b32_of_N_bytes v : b32 (b32_of_N v) = le 32 v.
Proof.
  unfold b32_of_N. destruct (b32_of_some (le 32 v) (le_length 32 v)) as [b [H1 H2]].
  rewrite H1. exact H2.
Qed.
Lemma N_of_b32_of_N v : N_of_b32 (b32_of_N v) = v mod 2 ^ 256.
Proof. unfold N_of_b32. rewrite b32_of_N_bytes, le_val_le. reflexivity. Qed.
Lemma N_of_b32_bound b : N_of_b32 b < 2 ^ 256.
Proof.
  unfold N_of_b32. pose proof (le_val_bound (b32 b)) as H. rewrite b32_length in H.
  exact H.
Qed.

(** ** Lists *)
Lemma app_inv_length {A} (a b c d : list A) :
  length a = length c -> a ++ b = c ++ d -> a = c /\ b = d.
Proof.
  revert c; induction a as [|x a IH]; intros [|y c] L H; cbn in *; try discriminate.
  - split; [reflexivity|exact H].
  - injection H as -> H. injection L as L. destruct (IH c L H) as [-> ->]. split; reflexivity.
Qed.

Lemma cons_inv {A} (a b : A) x y : a :: x = b :: y -> a = b /\ x = y.
Proof. intros E. injection E as -> ->. split; reflexivity. Qed.

Lemma bind_ret {A B} (o : outcome A) (f : A -> outcome B) b :
  bind o f = Ret b -> exists a, o = Ret a /\ f a = Ret b.
Proof. destruct o as [a|p]; cbn; intros H; [exists a; split; [reflexivity|exact H]|discriminate]. Qed.

Global Arguments N.pow : simpl never.
