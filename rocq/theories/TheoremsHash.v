(** C80: the RIPEMD-160 instance of DigestExt; tagged hashing of framed data. *)
From Verif Require Import Base BaseFacts Digest Sha256 Ripemd SpecHash SpecSha SpecRipemd SpecEngine SpecMisc.
From Verif Require Import HashFacts ShaProofs RipemdProofs TheoremsMisc TheoremsAdv.
Local Open Scope nat_scope.

Lemma c80_published : forall x d, (exists calls, rmd_run x calls d) <-> d = ripemd160 x /\ length d = 20.
Proof.
  intros x d. split.
  - intros [calls R]. rewrite (rmd_unique _ _ _ R). split; [reflexivity|apply rmd_length].
  - intros [-> _]. apply rmd_runs.
Qed.

Lemma fold_input datas : forall e, fold_left input_raw datas e = e ++ concat datas.
Proof.
  induction datas as [|d ds IH]; intros e; cbn; [rewrite app_nil_r; reflexivity|].
  rewrite IH. unfold input_raw. rewrite <- app_assoc. reflexivity.
Qed.
Lemma rmd_tag_eq tag : rmd_from_tag tag = ripemd160 tag ++ ripemd160 tag.
Proof. unfold rmd_from_tag, from_tag_with. cbn. reflexivity. Qed.

Lemma c80_tagged : forall tag datas d calls (of_tag : rmd_run tag calls d),
  exists calls', rmd_run (r_pre d (concat datas)) calls' (rmd_finish (fold_left input_raw datas (rmd_from_tag tag))).
Proof.
  intros tag datas d calls R. rewrite fold_input, rmd_tag_eq, (rmd_unique _ _ _ R), <- app_assoc. unfold rmd_finish. apply rmd_runs.
Qed.

Lemma rmd_pre_inj tag tag' x y L :
  In tag L -> In tag' L -> In (r_pre (ripemd160 tag) x) L -> In (r_pre (ripemd160 tag') y) L -> Forall short L ->
  ripemd160 (r_pre (ripemd160 tag) x) = ripemd160 (r_pre (ripemd160 tag') y) ->
  (tag = tag' /\ x = y) \/ rcompress_collision_in L.
Proof.
  intros I1 I2 I3 I4 F E. rewrite Forall_forall in F.
  destruct (rmd_collision_lifts _ _ L I3 I4 (F _ I3) (F _ I4) E) as [Q|Q]; [|right; exact Q].
  unfold r_pre in Q. apply app_inv_length in Q as [Q1 Q2]; [|rewrite !rmd_length; reflexivity].
  apply app_inv_length in Q2 as [_ Q2]; [|rewrite !rmd_length; reflexivity].
  destruct (rmd_collision_lifts _ _ L I1 I2 (F _ I1) (F _ I2) Q1) as [Q|Q]; [left; auto|right; exact Q].
Qed.

Lemma c80_binding : forall tag tag' datas datas' d d' calls calls'
  (of_tag : rmd_run tag calls d) (of_tag' : rmd_run tag' calls' d')
  (fit : Forall short [tag; tag'; r_pre d (concat datas); r_pre d' (concat datas')])
  (equal : rmd_finish (fold_left input_raw datas (rmd_from_tag tag)) = rmd_finish (fold_left input_raw datas' (rmd_from_tag tag'))),
  (tag = tag' /\ concat datas = concat datas') \/
  rcompress_collision_in [tag; tag'; r_pre d (concat datas); r_pre d' (concat datas')].
Proof.
  intros tag tag' xs ys d d' c c' R R' F E. rewrite !fold_input, !rmd_tag_eq, <- !app_assoc in E.
  rewrite (rmd_unique _ _ _ R), (rmd_unique _ _ _ R') in *.
  apply rmd_pre_inj; cbn [In]; auto.
Qed.

Lemma c80_framed : forall max k tag tag' xs ys d d' calls calls' e e'
  (size : prefix_size max k) (max_ok : (max < 2 ^ 32)%N)
  (short1 : Forall (fun x => (N.of_nat (length x) <= max)%N) xs)
  (short2 : Forall (fun x => (N.of_nat (length x) <= max)%N) ys)
  (of_tag : rmd_run tag calls d) (of_tag' : rmd_run tag' calls' d')
  (fed : inputs_with_len max (rmd_from_tag tag) xs = Ret e)
  (fed' : inputs_with_len max (rmd_from_tag tag') ys = Ret e')
  (fit : Forall short [tag; tag'; r_pre d (framed k xs); r_pre d' (framed k ys)])
  (equal : rmd_finish e = rmd_finish e'),
  (tag = tag' /\ xs = ys) \/ rcompress_collision_in [tag; tag'; r_pre d (framed k xs); r_pre d' (framed k ys)].
Proof.
  intros max k tag tag' xs ys d d' c c' e e' P M F1 F2 R R' E1 E2 F E.
  assert (X1 : e = rmd_from_tag tag ++ framed k xs) by (pose proof (c38_stream max k (rmd_from_tag tag) xs P M F1); congruence). subst e.
  assert (X2 : e' = rmd_from_tag tag' ++ framed k ys) by (pose proof (c38_stream max k (rmd_from_tag tag') ys P M F2); congruence). subst e'.
  rewrite !rmd_tag_eq, <- !app_assoc in E. rewrite (rmd_unique _ _ _ R), (rmd_unique _ _ _ R') in *.
  set (L := [tag; tag'; r_pre (ripemd160 tag) (framed k xs); r_pre (ripemd160 tag') (framed k ys)]) in *.
  assert (Q : (tag = tag' /\ framed k xs = framed k ys) \/ rcompress_collision_in L).
  { apply rmd_pre_inj; [left; reflexivity|right; left; reflexivity|right; right; left; reflexivity|right; right; right; left; reflexivity|exact F|exact E]. }
  destruct Q as [[-> Q]|Q]; [left|right; exact Q].
  split; [reflexivity|]. apply (c38_unambiguous max [] xs ys (framed k xs) M F1 F2).
  - exact (c38_stream max k [] xs P M F1).
  - rewrite Q. exact (c38_stream max k [] ys P M F2).
Qed.

(** The same for the instance used throughout, for every 32-byte hash. *)
Lemma c80_framed_sha : forall (H : Hasher) max k tag tag' xs ys e e'
  (size : prefix_size max k) (max_ok : (max < 2 ^ 32)%N)
  (short1 : Forall (fun x => (N.of_nat (length x) <= max)%N) xs)
  (short2 : Forall (fun x => (N.of_nat (length x) <= max)%N) ys)
  (fed : inputs_with_len max (from_tag tag) xs = Ret e)
  (fed' : inputs_with_len max (from_tag tag') ys = Ret e')
  (equal : digest_finish e = digest_finish e'),
  (tag = tag' /\ xs = ys) \/ collision_in [tag; tag'; s_pre tag (framed k xs); s_pre tag' (framed k ys)].
Proof.
  intros H max k tag tag' xs ys e e' P M F1 F2 E1 E2 E.
  assert (X1 : e = from_tag tag ++ framed k xs) by (pose proof (c38_stream max k (from_tag tag) xs P M F1); congruence). subst e.
  assert (X2 : e' = from_tag tag' ++ framed k ys) by (pose proof (c38_stream max k (from_tag tag') ys P M F2); congruence). subst e'.
  assert (T : forall t, from_tag t = b32 (HASH t) ++ b32 (HASH t)) by (intros t; unfold from_tag, from_tag_with; cbn; reflexivity).
  rewrite !T, <- !app_assoc in E. change (HASH (s_pre tag (framed k xs)) = HASH (s_pre tag' (framed k ys))) in E.
  set (L := [tag; tag'; s_pre tag (framed k xs); s_pre tag' (framed k ys)]).
  destruct (coll L (s_pre tag (framed k xs)) (s_pre tag' (framed k ys)) ltac:(right; right; left; reflexivity) ltac:(right; right; right; left; reflexivity) E) as [Q|Q]; [|right; exact Q].
  destruct (s_pre_tags _ _ _ _ Q) as [Q1 Q2].
  destruct (coll L tag tag' ltac:(left; reflexivity) ltac:(right; left; reflexivity) Q1) as [->|X]; [left|right; exact X].
  split; [reflexivity|]. apply (c38_unambiguous max [] xs ys (framed k xs) M F1 F2).
  - exact (c38_stream max k [] xs P M F1).
  - rewrite Q2. exact (c38_stream max k [] ys P M F2).
Qed.
