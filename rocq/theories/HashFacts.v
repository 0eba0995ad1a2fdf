(** Injectivity of the hashed byte strings; agreement of the model's encodings with
    the specification; extraction of collisions. *)
From Verif Require Import Base BaseFacts SpecHash Strict Merkle MpcAtoms MpcTree MpcBlock.

Section Facts.
Context {H : Hasher}.

Lemma coll L x y : In x L -> In y L -> HASH x = HASH y -> x = y \/ collision_in L.
Proof.
  intros Hx Hy E. destruct (bytes_eq_dec x y) as [->|N]; [left; reflexivity|right].
  exists x, y. repeat split; assumption.
Qed.
Lemma coll_incl L L' : incl L L' -> collision_in L -> collision_in L'.
Proof.
  intros I [x [y [Hx [Hy [N E]]]]]. exists x, y. repeat split; auto.
Qed.
Lemma coll_app_l L L' : collision_in L -> collision_in (L ++ L').
Proof. apply coll_incl, incl_appl, incl_refl. Qed.
Lemma coll_app_r L L' : collision_in L' -> collision_in (L ++ L').
Proof. apply coll_incl, incl_appr, incl_refl. Qed.

Lemma s_pre_inj tag a b : s_pre tag a = s_pre tag b -> a = b.
Proof. unfold s_pre. intros E. do 2 apply app_inv_head in E. exact E. Qed.

Lemma s_pre_tags t1 t2 a b : s_pre t1 a = s_pre t2 b -> HASH t1 = HASH t2 /\ a = b.
Proof.
  unfold s_pre. intros E. apply app_inv_length in E as [E1 E2]; [|rewrite !b32_length; reflexivity].
  apply app_inv_length in E2 as [_ E2]; [|rewrite !b32_length; reflexivity].
  split; [apply b32_inj; exact E1|exact E2].
Qed.

Lemma s_branch_inj d d' W W' a b a' b' :
  d <= 255 -> d' <= 255 -> (W < 2 ^ 256)%N -> (W' < 2 ^ 256)%N ->
  s_branch d W a b = s_branch d' W' a' b' -> d = d' /\ W = W' /\ a = a' /\ b = b'.
Proof.
  intros Hd Hd' HW HW' E. apply s_pre_inj in E. apply cons_inv in E as [_ E].
  apply cons_inv in E as [E1 E2].
  apply byte_of_N_inj in E1; [|lia|lia]. apply Nat2N.inj in E1.
  apply app_inv_length in E2 as [E2 E3]; [|rewrite !le_length; reflexivity].
  apply (le_inj 32) in E2; [|exact HW|exact HW'].
  apply app_inv_length in E3 as [E3 E4]; [|rewrite !b32_length; reflexivity].
  repeat split; try assumption; apply b32_inj; assumption.
Qed.
(** At one depth and width, no bounds are needed. *)
Lemma s_branch_inj_children d W a b a' b' :
  s_branch d W a b = s_branch d W a' b' -> a = a' /\ b = b'.
Proof.
  intros E. apply s_pre_inj in E. apply cons_inv in E as [_ E]. apply cons_inv in E as [_ E].
  apply app_inv_head in E.
  apply app_inv_length in E as [E3 E4]; [|rewrite !b32_length; reflexivity].
  split; apply b32_inj; assumption.
Qed.
Lemma s_leaf_inj p m p' m' : s_leaf p m = s_leaf p' m' -> p = p' /\ m = m'.
Proof.
  intros E. apply s_pre_inj in E. apply cons_inv in E as [_ E].
  apply app_inv_length in E as [E1 E2]; [|rewrite !b32_length; reflexivity].
  split; apply b32_inj; assumption.
Qed.
Lemma s_entropy_inj e i e' i' :
  (e < 2 ^ 64)%N -> (e' < 2 ^ 64)%N -> (i < 2 ^ 32)%N -> (i' < 2 ^ 32)%N ->
  s_entropy e i = s_entropy e' i' -> e = e' /\ i = i'.
Proof.
  intros He He' Hi Hi' E. apply s_pre_inj in E. apply cons_inv in E as [_ E].
  apply app_inv_length in E as [E1 E2]; [|rewrite !le_length; reflexivity].
  split; [apply (le_inj 8)|apply (le_inj 4)]; assumption.
Qed.
Lemma s_leaf_entropy p m e i : s_leaf p m <> s_entropy e i.
Proof. intros E. apply s_pre_inj in E. discriminate. Qed.
Lemma s_leaf_branch p m d W a b : s_leaf p m <> s_branch d W a b.
Proof. intros E. apply s_pre_inj in E. discriminate. Qed.
Lemma s_entropy_branch e i d W a b : s_entropy e i <> s_branch d W a b.
Proof. intros E. apply s_pre_inj in E. discriminate. Qed.
Lemma s_commit_inj d d' c c' r r' :
  d <= 255 -> d' <= 255 -> (c < 2 ^ 16)%N -> (c' < 2 ^ 16)%N ->
  s_commit d c r = s_commit d' c' r' -> d = d' /\ c = c' /\ r = r'.
Proof.
  intros Hd Hd' Hc Hc' E. apply s_pre_inj in E. apply cons_inv in E as [E1 E2].
  apply byte_of_N_inj in E1; [|lia|lia]. apply Nat2N.inj in E1.
  apply (app_inv_length (le 2 c)) in E2 as [E2 E3]; [|rewrite !le_length; reflexivity].
  apply (le_inj 2) in E2; [|exact Hc|exact Hc'].
  repeat split; try assumption. apply b32_inj; assumption.
Qed.

(** The model hashes exactly these strings. *)
Lemma mh_branches_spec d W a b : mh_branches d W a b = HASH (s_branch d W a b).
Proof. reflexivity. Qed.
Lemma mh_single_spec d W a : mh_single d W a = HASH (s_single d W a).
Proof. reflexivity. Qed.
Lemma mh_void_spec d W : mh_void d W = HASH (s_void d W).
Proof. reflexivity. Qed.
Lemma leaf_spec p m : leaf_commit_id (Inhabited p m) = HASH (s_leaf p m).
Proof. reflexivity. Qed.
Lemma entropy_spec e i : leaf_commit_id (Entropy e i) = HASH (s_entropy e i).
Proof. reflexivity. Qed.
Lemma commit_spec d c r : concealed_commit_id (MConcealed d c r) = HASH (s_commit d c r).
Proof. reflexivity. Qed.

End Facts.

Lemma width_of_bound D : D <= 31 -> (width_of D <= 2 ^ 31)%N.
Proof. intros HD. unfold width_of. apply N.pow_le_mono_r; lia. Qed.
Lemma width_of_pos D : (0 < width_of D)%N.
Proof. unfold width_of. apply N.neq_0_lt_0, N.pow_nonzero. lia. Qed.
Lemma width_of_256 D : D <= 31 -> (width_of D < 2 ^ 256)%N.
Proof.
  intros HD. eapply N.le_lt_trans; [apply width_of_bound; exact HD|reflexivity].
Qed.
