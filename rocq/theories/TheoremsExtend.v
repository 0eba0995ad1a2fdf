(** C97: extending hashed strings without knowing them. *)
From Verif Require Import Base BaseFacts OrdMap Strict Digest Merkle MpcAtoms MpcTree MpcBlock Sha256.
From Verif Require Import SpecHash SpecTree SpecFull SpecCodec SpecEngine SpecSha SpecExtend SpecMisc ShaProofs HashFacts EngineProofs MiscProofs.
Local Open Scope nat_scope.

Lemma blocks_exist p : Nat.divide 64 (length p) -> exists bs, blocks_of p bs.
Proof.
  intros [k L]. destruct (words_spec (16 * k) p) as [WL [WF WC]]; [lia|]. destruct (chunk_spec k (words p)) as [CL [CF CC]]; [lia|].
  exists (chunk k (words p)). split; [exact CF|split].
  - apply concat_firstn_forall. rewrite CC. exact WF.
  - rewrite CC. symmetry. exact WC.
Qed.
Lemma chain_exists bs : forall s, exists calls s', chain s bs calls s'.
Proof. induction bs as [|b bs IH]; intros s; [eexists _, _; constructor|]. destruct (IH (compress s b)) as (c & s' & C). eexists _, _. constructor. exact C. Qed.
Lemma chain_app s bs c1 s1 cs c2 s2 : chain s bs c1 s1 -> chain s1 cs c2 s2 -> chain s (bs ++ cs) (c1 ++ c2) s2.
Proof. induction 1; intros C; [exact C|]. cbn. constructor. auto. Qed.
Lemma blocks_app p q bs cs : blocks_of p bs -> blocks_of q cs -> blocks_of (p ++ q) (bs ++ cs).
Proof.
  intros (A1 & A2 & ->) (B1 & B2 & ->). split; [apply Forall_app; auto|split; [apply Forall_app; auto|]].
  rewrite concat_app, map_app, concat_app. reflexivity.
Qed.
Lemma c97_extension : forall x p s (pad : padded x p),
  resumes (b32 (sha256 x)) (length p) s (b32 (sha256 (p ++ s))) /\
  forall d', resumes (b32 (sha256 x)) (length p) s d' -> d' = b32 (sha256 (p ++ s)).
Proof.
  intros x p s P. destruct (sha_runs x) as (c1 & p' & bs & s1 & P' & B & C & E). rewrite (padded_unique _ _ _ P' P) in *. clear p' P'.
  destruct (sha_runs (p ++ s)) as (c2 & P2 & bs2 & s2 & (z & EP & Z & DV) & B2 & C2 & E2).
  assert (PR : Forall (fun w => (w < 2 ^ 32)%N) (words_of s1)).
  { destruct B as (B0 & B1 & _). apply (chain_proper _ _ _ _ C iv_proper B0 B1). }
  assert (D1 : Nat.divide 64 (length p)) by (destruct P as (? & _ & _ & D); exact D).
  assert (K : forall d', resumes (b32 (sha256 x)) (length p) s d' -> d' = b32 (sha256 (p ++ s))).
  { intros d' (st0 & z' & q & cs & calls & st1 & E0 & F0 & Eq & Z' & Dq & Bq & Cq & ->).
    assert (st0 = s1) by (apply digest_inj; [exact F0|exact PR|congruence]). subst st0.
    assert (RR : sha_run (p ++ s) (c1 ++ calls) (digest_of st1)).
    { exists (p ++ q), (bs ++ cs), st1. split; [|split; [apply blocks_app; assumption|split; [eapply chain_app; eassumption|reflexivity]]].
      exists z'. rewrite Eq, app_length, <- !app_assoc. split; [reflexivity|split; [exact Z'|]].
      rewrite Eq in Dq. rewrite app_length. apply Nat.divide_add_r; [exact D1|exact Dq]. }
    assert (RS : sha_run (p ++ s) c2 (b32 (sha256 (p ++ s)))).
    { exists P2, bs2, s2. split; [exists z; auto|split; [exact B2|split; [exact C2|exact E2]]]. }
    apply (sha_run_unique _ _ _ _ _ RR RS). }
  split; [|exact K].
  set (q := s ++ x80 :: repeat x00 z ++ s_be 8 (8 * N.of_nat (length p + length s))).
  assert (Q : P2 = p ++ q) by (rewrite EP; unfold q; rewrite app_length, <- app_assoc; reflexivity).
  assert (Dq : Nat.divide 64 (length q)).
  { rewrite Q, app_length in DV. apply (Nat.divide_add_cancel_r 64 (length p)) in DV; assumption. }
  destruct (blocks_exist q Dq) as (cs & Bq). destruct (chain_exists cs s1) as (calls & st1 & Cq).
  assert (R : resumes (b32 (sha256 x)) (length p) s (digest_of st1)).
  { exists s1, z, q, cs, calls, st1. split; [congruence|split; [exact PR|split; [reflexivity|split; [exact Z|split; [exact Dq|split; [exact Bq|split; [exact Cq|reflexivity]]]]]]]. }
  rewrite <- (K _ R). exact R.
Qed.

(** ** Multi-protocol commitments *)
Lemma padded_length x p : padded x p -> length x + 9 <= length p /\ Nat.divide 64 (length p).
Proof.
  intros (z & E & _ & D). split; [|exact D]. rewrite E, app_length. cbn [length]. rewrite app_length, repeat_length, s_be_length. lia.
Qed.
Lemma padded_at x p k : padded x p -> 64 * k <= length x + 8 -> 64 * S k <= length p.
Proof. intros P L. apply padded_length in P as [P [m D]]. lia. Qed.
Lemma pre_length {H : Hasher} tag data : length (s_pre tag data) = 64 + length data.
Proof. unfold s_pre. rewrite !app_length, !b32_length. lia. Qed.
Lemma leaf_length {H : Hasher} p m : length (s_leaf p m) = 129.
Proof. unfold s_leaf. rewrite pre_length. cbn [length]. rewrite app_length, !b32_length. reflexivity. Qed.
Lemma entropy_length {H : Hasher} e pos : length (s_entropy e pos) = 77.
Proof. unfold s_entropy. rewrite pre_length. cbn [length]. rewrite app_length, !le_length. reflexivity. Qed.
Lemma branch_length {H : Hasher} d w a b : length (s_branch d w a b) = 162.
Proof. unfold s_branch. rewrite pre_length. cbn [length]. rewrite !app_length, !le_length, !b32_length. reflexivity. Qed.
Lemma single_length {H : Hasher} d w a : length (s_single d w a) = 162.
Proof. unfold s_single. rewrite pre_length. cbn [length]. rewrite !app_length, !le_length, !b32_length, repeat_length. reflexivity. Qed.
Lemma void_length {H : Hasher} d w : length (s_void d w) = 162.
Proof. unfold s_void. rewrite pre_length. cbn [length]. rewrite !app_length, !le_length, !repeat_length. reflexivity. Qed.
Lemma commit_length {H : Hasher} d c r : length (s_commit d c r) = 99.
Proof. unfold s_commit. rewrite pre_length. cbn [length]. rewrite !app_length, !le_length, !b32_length. reflexivity. Qed.

(** What a string of at least 128 bytes begins with *)
Lemma long_string {H : Hasher} y : mpc_string y -> 128 <= length y -> exists v r, y = s_pre s_node_tag (v :: r) /\ v <> x11 /\ length y <= 162.
Proof.
  intros M L. destruct M; try (vm_compute in L; lia).
  - exists x10, (b32 p ++ b32 m). rewrite leaf_length. split; [reflexivity|split; [discriminate|lia]].
  - rewrite entropy_length in L. lia.
  - eexists x02, _. rewrite branch_length. split; [reflexivity|split; [discriminate|lia]].
  - eexists x01, _. rewrite single_length. split; [reflexivity|split; [discriminate|lia]].
  - eexists x00, _. rewrite void_length. split; [reflexivity|split; [discriminate|lia]].
  - rewrite commit_length in L. lia.
Qed.
Lemma pre_repeats {H : Hasher} tag data : nth_error (s_pre tag data) 0 = nth_error (s_pre tag data) 32.
Proof.
  unfold s_pre. pose proof (b32_length (HASH tag)) as B. rewrite (nth_error_app2 (b32 (HASH tag)) _ (n := 32)) by lia. rewrite B, Nat.sub_diag.
  destruct (b32 (HASH tag)) as [|h l]; [discriminate|]. reflexivity.
Qed.
Lemma pre_head {H : Hasher} tag data r tag' data' : s_pre tag data ++ r = s_pre tag' data' -> b32 (HASH tag) = b32 (HASH tag') /\ data ++ r = data'.
Proof.
  unfold s_pre. rewrite <- !app_assoc. intros E. apply app_inv_length in E as [E1 E]; [|rewrite !b32_length; reflexivity].
  apply app_inv_length in E as [_ E]; [|rewrite !b32_length; reflexivity]. auto.
Qed.
Lemma c97_mpc : forall (H : Hasher) x p s (hashed : mpc_string x) (pad : padded x p), mpc_string (p ++ s) -> collision_in [s_node_tag; s_commit_tag].
Proof.
  intros H x p s M P Y.
  assert (LP : forall y, mpc_string y -> 64 <= length y -> nth_error y 0 = nth_error y 32).
  { intros y My L. destruct My; try (vm_compute in L; lia); apply pre_repeats. }
  assert (EP : exists g, p = x ++ x80 :: g) by (destruct P as (z & -> & _); eauto). destruct EP as (g & EP).
  assert (LL : forall k, 64 * k <= length x + 8 -> 64 * S k <= length (p ++ s)).
  { intros k L. apply (padded_at _ _ _ P) in L. rewrite app_length. lia. }
  assert (LN : length x = 129 \/ length x = 162 -> False).
  { intros L. destruct (long_string _ Y) as (_ & _ & _ & _ & L2); [specialize (LL 1); lia|]. specialize (LL 2). lia. }
  destruct M.
  - exfalso. pose proof (LP _ Y (LL 0 ltac:(lia))) as E. rewrite EP in E. vm_compute in E. discriminate.
  - exfalso. pose proof (LP _ Y (LL 0 ltac:(lia))) as E. rewrite EP in E. vm_compute in E. discriminate.
  - exfalso. apply LN. left. apply leaf_length.
  - exfalso. destruct (long_string _ Y) as (v & r & E & N & _); [specialize (LL 1); rewrite entropy_length in LL; lia|].
    rewrite EP, <- app_assoc in E. apply pre_head in E as [_ E]. cbn [app] in E. injection E as E _. congruence.
  - exfalso. apply LN. right. apply branch_length.
  - exfalso. apply LN. right. apply single_length.
  - exfalso. apply LN. right. apply void_length.
  - destruct (long_string _ Y) as (v & r' & E & N & _); [specialize (LL 1); rewrite commit_length in LL; lia|].
    rewrite EP, <- app_assoc in E. apply pre_head in E as [E _].
    exists s_node_tag, s_commit_tag. split; [cbn; auto|split; [cbn; auto|split; [discriminate|]]]. apply b32_inj. congruence.
Qed.

Lemma ppre_strings {H : Hasher} W t : forall d x, In x (ppre W d t) -> mpc_string x.
Proof.
  induction t as [h|a m|l IHl r IHr]; intros d x I; cbn [ppre] in I.
  - contradiction.
  - destruct I as [<-|[]]. constructor.
  - destruct I as [<-|I]; [constructor|]. apply in_app_or in I as [I|I]; eauto.
Qed.
Lemma pcommit_strings {H : Hasher} D c t x : In x (pcommit_pre D c t) -> mpc_string x.
Proof.
  unfold pcommit_pre. intros I. apply in_app_or in I as [I|I]; [|eapply ppre_strings; exact I].
  destruct I as [<-|[<-|[<-|[]]]]; constructor.
Qed.
Lemma c97_listed : forall (H : Hasher) x,
  (forall t, In x (tree_pre t) -> mpc_string x) /\ (forall pf pid msg, In x (proof_pre pf pid msg) -> mpc_string x).
Proof.
  intros H x. split.
  - intros t I. apply in_app_or in I as [I|I]; [eapply pcommit_strings; exact I|].
    apply in_flat_map in I as (pos & _ & I). destruct (om_get N.ltb pos (mt_map t)); [contradiction|]. destruct I as [<-|[]]. constructor.
  - intros pf pid msg I. eapply pcommit_strings. exact I.
Qed.

(** ** Values *)
Lemma c97_values : forall (H : Hasher) A (c : codec A) valid tag v w p s (law : lawful c valid) (ok_v : valid v) (ok_w : valid w)
  (pad : padded (s_pre tag (enc c v)) p), p ++ s <> s_pre tag (enc c w).
Proof.
  intros H A c valid tag v w p s L V W (z & -> & _) E. rewrite <- app_assoc in E. apply pre_head in E as [_ E].
  pose proof (law_rt _ _ L w [] W) as D. rewrite app_nil_r, <- E, (law_rt _ _ L v _ V) in D. discriminate.
Qed.

(** ** Framed strings *)
Lemma le_more a b : forall v, le (a + b) v = le a v ++ le b (v / 256 ^ N.of_nat a).
Proof.
  induction a as [|a IH]; intros v.
  - cbn [Nat.add le app N.of_nat]. rewrite N.pow_0_r, N.div_1_r. reflexivity.
  - cbn [Nat.add le app]. f_equal. rewrite IH, Nat2N.inj_succ, N.pow_succ_r', N.div_div by (try apply N.pow_nonzero; discriminate). reflexivity.
Qed.
Lemma be_small v : (v < 2 ^ 40)%N -> s_be 8 v = x00 :: x00 :: x00 :: s_be 5 v.
Proof.
  intros L. unfold s_be. change 8 with (5 + 3). rewrite le_more. change (256 ^ N.of_nat 5)%N with (2 ^ 40)%N. rewrite N.div_small by exact L.
  rewrite rev_app_distr. reflexivity.
Qed.
Lemma inputs_snoc max d xs : forall e e', inputs_with_len max e xs = Ret e' -> inputs_with_len max e (xs ++ [d]) = input_with_len max e' d.
Proof.
  induction xs as [|x xs IH]; intros e e'; cbn [app inputs_with_len].
  - intros E. injection E as ->. destruct (input_with_len max e' d); reflexivity.
  - destruct (input_with_len max e x); cbn [bind]; [apply IH|discriminate].
Qed.
Lemma zeros_more z r k : k <= z + 3 -> exists g, repeat x00 z ++ x00 :: x00 :: x00 :: r = repeat x00 k ++ g /\ length g + k = z + 3 + length r.
Proof.
  intros L. change (x00 :: x00 :: x00 :: r) with (repeat x00 3 ++ r). rewrite app_assoc, <- repeat_app.
  replace (z + 3) with (k + (z + 3 - k)) by lia. rewrite repeat_app, <- app_assoc. eexists. split; [reflexivity|].
  rewrite app_length, repeat_length. lia.
Qed.
Lemma c97_framed_refuted : forall max k e xs e' p s (size : prefix_size max k) (max_ok : (128 <= max < 2 ^ 32)%N)
  (fed : inputs_with_len max e xs = Ret e') (pad : padded e' p) (short : (N.of_nat (length e') < 2 ^ 37)%N)
  (added : length (p ++ s) = length e' + k + 128),
  exists d d', length d = 128 /\ inputs_with_len max e (xs ++ [d]) = Ret (p ++ s) /\
    resumes (b32 (sha256 e')) (length p) s d' /\ d' = b32 (sha256 (p ++ s)).
Proof.
  intros max k e xs e' p s P M E PD S A. pose proof PD as (z & EP & Z & D).
  rewrite be_small in EP by lia. assert (K : 1 <= k <= 4) by (destruct P; lia).
  destruct (zeros_more z (s_be 5 (8 * N.of_nat (length e'))) (k - 1)) as (g & G & LG); [lia|]. rewrite G in EP.
  exists (g ++ s), (b32 (sha256 (p ++ s))).
  assert (LD : length (g ++ s) = 128).
  { rewrite EP, !app_length in A. cbn [length] in A. rewrite app_length, repeat_length in A. rewrite app_length. lia. }
  split; [exact LD|split; [|split; [apply c97_extension; exact PD|reflexivity]]].
  rewrite (inputs_snoc _ _ _ _ _ E).
  assert (I : input_with_len max e' (g ++ s) = Ret (e' ++ framed k [g ++ s])).
  { pose proof (inputs_ok max k [g ++ s] e' P ltac:(lia)) as I. cbn [inputs_with_len] in I.
    destruct (input_with_len max e' (g ++ s)); apply I; constructor; try constructor; rewrite LD; lia. }
  rewrite I. unfold framed. cbn [map concat]. rewrite app_nil_r, LD, EP, <- !app_assoc. cbn [app]. rewrite <- app_assoc.
  f_equal. f_equal. destruct P; try lia; reflexivity.
Qed.
Lemma c97_mpc_sha : forall x p s (hashed : @mpc_string sha256 x) (pad : padded x p), ~ @mpc_string sha256 (p ++ s).
Proof.
  intros x p s M P Y. destruct (c97_mpc sha256 x p s M P Y) as (a & b & [<-|[<-|[]]] & [<-|[<-|[]]] & N & E); try congruence;
  apply (f_equal b32) in E; vm_compute in E; discriminate.
Qed.
Lemma c97_tags : forall (H : Hasher) tag tag' data data' p s (pad : padded (s_pre tag data) p) (same : p ++ s = s_pre tag' data'),
  tag = tag' \/ collision_in [tag; tag'].
Proof.
  intros H tag tag' data data' p s (z & -> & _) E. rewrite <- app_assoc in E. apply pre_head in E as [E _].
  apply coll; [cbn; auto|cbn; auto|]. apply b32_inj, E.
Qed.
