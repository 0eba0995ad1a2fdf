(** C93: commitments hide the messages from adversaries asking few hashes. *)
From Verif Require Import Base BaseFacts OrdMap Strict Merkle MpcAtoms MpcTree MpcBlock.
From Verif Require Import SpecHash SpecTree SpecMerkle SpecFull SpecValid SpecFind SpecBlock SpecCommit SpecCount SpecGame SpecHideGame.
From Verif Require Import MerkleProofs MpcTreeProofs CountProofs GameProofs GameHideProofs TheoremsMpc TheoremsBlock TheoremsMore TheoremsQuery TheoremsExt TheoremsCount TheoremsFind TheoremsGame PathProofs.
Local Open Scope nat_scope.

(** ** The tree for each entropy *)
Definition with_entropy (t : merkle_tree) (e : N) : merkle_tree :=
  MTree (mt_method t) (mt_depth t) e (mt_cofactor t) (mt_messages t) (mt_map t).
Lemma commit_entropy src e e' t : ms_static_entropy src = None -> try_commit src (Some e) = Ret (Ok t) ->
  try_commit src (Some e') = Ret (Ok (with_entropy t e')).
Proof.
  intros S. unfold try_commit. rewrite S. destruct (_ && _); [discriminate|]. destruct (_ <? _)%N; [discriminate|]. cbn [bind].
  destruct (commit_loop 32 _ _ 1) as [[[[d' c'] m']|er]|]; try discriminate. cbn [bind]. intros E. injection E as <-. reflexivity.
Qed.
(** The last string hashed for a tree *)
Definition last_string (H : Hasher) (t : merkle_tree) : list byte :=
  @s_commit H (mt_depth t) (mt_cofactor t) (@phash H (2 ^ N.of_nat (mt_depth t)) 0 (@tree_full H t)).
Lemma commit_last H md t : mt_depth t <= 31 -> @tree_commit_id H md t = Ret (H (last_string H t)).
Proof. intros D. apply (@tree_commit_any H md t D). Qed.
Lemma last_length H t : length (last_string H t) = 99.
Proof. unfold last_string, s_commit. rewrite pre_length. cbn [length]. rewrite !app_length, le_length, !b32_length. reflexivity. Qed.
Lemma last_other (H H' : Hasher) t : (forall s, length s <> 99 -> H' s = H s) -> last_string H' t = last_string H t.
Proof.
  intros E. unfold last_string, s_commit, s_pre, HASH.
  assert (TC : H' s_commit_tag = H s_commit_tag) by (apply E; vm_compute; discriminate).
  assert (TN : H' s_node_tag = H s_node_tag) by (apply E; vm_compute; discriminate).
  assert (SL : forall i, @slot H' t i = @slot H t i).
  { intros i. unfold slot. destruct (om_get _ _ _) as [[p m]|]; [reflexivity|]. f_equal. unfold HASH, s_entropy, s_pre, HASH. rewrite TN.
    apply E. rewrite !app_length, !b32_length. cbn [length]. rewrite app_length, !le_length. lia. }
  assert (FT : @tree_full H' t = @tree_full H t).
  { unfold tree_full. generalize 0%N as o. generalize (mt_depth t) as k. induction k as [|k IH]; intros o; cbn [full_tree]; [apply SL|]. rewrite !IH. reflexivity. }
  assert (PH : forall W p d, @phash H' W d p = @phash H W d p).
  { intros W p. induction p as [h|p m|l IHl r IHr]; intros d; cbn [phash]; [reflexivity| |].
    - unfold HASH, s_leaf, s_pre, HASH. rewrite TN. apply E. rewrite !app_length, !b32_length. cbn [length]. rewrite app_length, !b32_length. lia.
    - rewrite IHl, IHr. unfold HASH, s_branch, s_pre, HASH. rewrite TN. apply E. rewrite !app_length, !b32_length. cbn [length].
      rewrite !app_length, le_length, !b32_length. lia. }
  rewrite TC, FT, PH. reflexivity.
Qed.

(** ** Asking for all entropies *)
Fixpoint p_each (t : merkle_tree) (Es : list N) : prog (list bytes32) :=
  match Es with
  | [] => Done []
  | e :: r => andthen (p_tree (with_entropy t e)) (fun c => andthen (p_each t r) (fun cs => Done (c :: cs)))
  end.
Lemma p_each_modest t n Es : 162 <= n -> modest n (length Es * (2 * 2 ^ mt_depth t + 2)) (p_each t Es).
Proof.
  intros N. induction Es as [|e Es IH]; [exact I|]. cbn [length p_each Nat.mul]. apply modest_andthen.
  - apply (p_tree_modest (with_entropy t e) n N).
  - intros c. apply (modest_mono n _ (length Es * (2 * 2 ^ mt_depth t + 2) + 0)); [lia|]. apply modest_andthen; [exact IH|intros; exact I].
Qed.
Lemma p_each_asked H t Es e : In e Es -> incl (@tree_pre H (with_entropy t e)) (asked H (p_each t Es)).
Proof.
  induction Es as [|a Es IH]; [intros []|]. intros [<-|I] s J; cbn [p_each]; rewrite asked_andthen; apply in_or_app.
  - left. apply p_tree_asked, J.
  - right. rewrite asked_andthen. apply in_or_app. left. apply (IH I), J.
Qed.
Lemma p_tree_exec H t : exec H (p_tree t) = H (last_string H t).
Proof. unfold p_tree. cbn [exec]. rewrite exec_andthen, p_full_exec. reflexivity. Qed.
Lemma p_each_exec H t Es : exec H (p_each t Es) = map (fun e => H (last_string H (with_entropy t e))) Es.
Proof. induction Es as [|e Es IH]; [reflexivity|]. cbn [p_each map]. rewrite !exec_andthen, p_tree_exec, IH. reflexivity. Qed.

(** ** Different entropies *)
Lemma same_last H src t e e' D : valid_source src -> blinded D src -> try_commit src (Some 0%N) = Ret (Ok t) ->
  (e < 2 ^ 64)%N -> (e' < 2 ^ 64)%N -> last_string H (with_entropy t e) = last_string H (with_entropy t e') -> 
  e = e' \/ @collision_in H (@tree_pre H (with_entropy t e) ++ @tree_pre H (with_entropy t e')).
Proof.
  intros V (S & t' & E' & _ & F) E B B' L. rewrite E in E'. injection E' as <-.
  destruct src as [mth d msgs s]. cbn [ms_static_entropy] in S. subst s. cbn [ms_messages] in F.
  assert (V' : forall x, (x < 2 ^ 64)%N -> valid_source (MultiSource mth d msgs (Some x))).
  { intros x Bx. destruct V as (V1 & V2 & V3 & _). exact (conj V1 (conj V2 (conj V3 Bx))). }
  assert (M : forall x, try_commit (MultiSource mth d msgs (Some x)) None = Ret (Ok (with_entropy t x))).
  { intros x. exact (commit_entropy (MultiSource mth d msgs None) 0 x t eq_refl E). }
  pose proof (gt_depth _ (try_commit_good _ _ _ V E)) as Dt.
  eapply (c62_blinded H Debug mth d msgs e e' None None _ _ (H (last_string H (with_entropy t e)))); try (apply V'; assumption); try apply M.
  - exact F.
  - apply commit_last. exact Dt.
  - rewrite L. apply commit_last. exact Dt.
Qed.
Lemma dup_dec {X} (g : X -> list byte) L : NoDup L ->
  {forall x y, In x L -> In y L -> g x = g y -> x = y} + {exists x y, In x L /\ In y L /\ x <> y /\ g x = g y}.
Proof.
  induction L as [|a L IH]; intros ND; [left; intros x y []|].
  destruct IH as [I|D]; [inversion ND; assumption| |right; destruct D as (x & y & Ix & Iy & D); exists x, y; repeat split; try (right; assumption); tauto].
  destruct (in_dec (list_eq_dec Byte.byte_eq_dec) (g a) (map g L)) as [J|J].
  - right. apply in_map_iff in J as (y & E & J). exists a, y. split; [left; reflexivity|split; [right; exact J|split; [|symmetry; exact E]]].
    intros <-. inversion ND; contradiction.
  - left. intros x y [<-|Ix] [<-|Iy] E; [reflexivity| | |apply I; assumption]; destruct J; apply in_map_iff; [exists y|exists x]; auto.
Qed.

Lemma below (n : N) : exists L, NoDup L /\ (forall e, In e L <-> (e < n)%N) /\ N.of_nat (length L) = n.
Proof.
  exists (map N.of_nat (seq 0 (N.to_nat n))). split; [|split].
  - apply FinFun.Injective_map_NoDup; [intros x y; apply Nat2N.inj|apply seq_NoDup].
  - intros e. rewrite in_map_iff. split; [intros (k & <- & I); apply in_seq in I; lia|].
    intros B. exists (N.to_nat e). split; [apply N2Nat.id|apply in_seq; lia].
  - rewrite map_length, seq_length, N2Nat.id. reflexivity.
Qed.

(** ** Counting *)
Section Count.
Variables (n : nat) (U : list (list byte)) (q D : nat) (A : bytes32 -> prog bool) (src : multi_source) (t : merkle_tree).
Variables (Es : list N) (Fs : list (list bytes32)) (Cs : list bytes32).
Hypothesis UU : universe n U.
Hypothesis short : 162 <= n.
Hypothesis few : forall c, modest n q (A c).
Hypothesis V : valid_source src.
Hypothesis Bl : blinded D src.
Hypothesis Et : try_commit src (Some 0%N) = Ret (Ok t).
Hypothesis NE : NoDup Es.
Hypothesis IE : forall e, In e Es <-> (e < 2 ^ 64)%N.
Hypothesis LE : N.of_nat (length Es) = (2 ^ 64)%N.
Hypothesis LF : lists_all Fs (fun f => length f = length U).
Hypothesis NF : N.of_nat (length Fs) = (2 ^ (256 * N.of_nat (length U)))%N.
Hypothesis NC : NoDup Cs.
Hypothesis IC : forall c, In c Cs.
Hypothesis LC : N.of_nat (length Cs) = (2 ^ 256)%N.

Definition X (e : N) (f : list bytes32) : list byte := last_string (table U f) (with_entropy t e).
Lemma depth_ok : mt_depth t <= 31.
Proof. exact (gt_depth _ (try_commit_good _ _ _ V Et)). Qed.
Lemma depth_D : mt_depth t <= D.
Proof. destruct Bl as (_ & t' & E' & L & _). rewrite Et in E'. injection E' as <-. exact L. Qed.
Lemma X_in e f : In (X e f) U.
Proof. apply (proj2 UU). unfold X. rewrite last_length. lia. Qed.
Lemma X_put e f c : X e (put U f (X e f) c) = X e f.
Proof. apply last_other. intros s L. apply put_other. intros E. apply L. rewrite <- E. apply last_length. Qed.
Lemma guesses_bool e f : guesses U src A (e, f) <-> In (e, f) (list_prod Es Fs) /\ exec (table U f) (A (table U f (X e f))) = true.
Proof.
  destruct Bl as (S & _). destruct LF as [_ IF]. rewrite in_prod_iff, IE, IF. unfold guesses. split.
  - intros (B & L & t' & c & E & C & R). split; [auto|]. rewrite (commit_entropy src 0 e t S Et) in E. injection E as <-.
    rewrite (commit_last (table U f) Debug (with_entropy t e) depth_ok) in C. injection C as <-. exact R.
  - intros [[B L] R]. split; [exact B|split; [exact L|]]. exists (with_entropy t e), (table U f (X e f)).
    split; [apply (commit_entropy src 0 e t S Et)|split; [apply (commit_last (table U f) Debug (with_entropy t e) depth_ok)|exact R]].
Qed.
Lemma guesses_sum k : counts (guesses U src A) k -> k = sum (fun e => sum (fun f => yes U A (table U f (X e f)) f) Fs) Es.
Proof.
  intros C. rewrite (counts_ind (guesses U src A) (fun ef => exec (table U (snd ef)) (A (table U (snd ef) (X (fst ef) (snd ef))))) (list_prod Es Fs) k).
  - rewrite sum_prod. reflexivity.
  - apply NoDup_prod; [exact NE|apply LF].
  - intros [e f]. apply guesses_bool.
  - exact C.
Qed.
Lemma blind_sum k0 : counts (guesses_blind U A) k0 -> k0 = sum (fun f => sum (fun c => yes U A c f) Cs) Fs.
Proof.
  intros C. rewrite (counts_ind (guesses_blind U A) (fun cf => exec (table U (snd cf)) (A (fst cf))) (list_prod Cs Fs) k0).
  - rewrite sum_prod, sum_swap. reflexivity.
  - apply NoDup_prod; [exact NC|apply LF].
  - intros [c f]. cbn [fst snd guesses_blind]. rewrite in_prod_iff, (proj2 LF f). pose proof (IC c). tauto.
  - exact C.
Qed.

Definition doubled (f : list bytes32) : bool := if dup_dec (fun e => X e f) Es NE then false else true.
Definition work : N := (2 * 2 ^ N.of_nat D + 2)%N.
Lemma doubled_few : (N.of_nat (length (filter doubled Fs)) * 2 ^ 257 <= (2 ^ 64 * work) * (2 ^ 64 * work) * 2 ^ (256 * N.of_nat (length U)))%N.
Proof.
  set (Q := length Es * (2 * 2 ^ mt_depth t + 2)).
  assert (QW : (N.of_nat Q <= 2 ^ 64 * work)%N).
  { unfold Q, work. rewrite Nat2N.inj_mul, LE. apply N.mul_le_mono_l. rewrite Nat2N.inj_add, Nat2N.inj_mul, Nat2N.inj_pow.
    change (N.of_nat 2) with 2%N. apply N.add_le_mono_r, N.mul_le_mono_l, N.pow_le_mono_r; [discriminate|]. pose proof depth_D. lia. }
  eapply N.le_trans; [apply (c92_birthday n U _ (p_each t Es) Q UU)|].
  - apply p_each_modest, short.
  - apply NoDup_filter, LF.
  - intros f I. apply filter_In in I as [I B]. split; [apply LF, I|]. unfold doubled in B.
    destruct (dup_dec (fun e => X e f) Es NE) as [|(e & e' & Ie & Ie' & N & EX)]; [discriminate|].
    destruct (same_last (table U f) src t e e' D V Bl Et (proj1 (IE e) Ie) (proj1 (IE e') Ie') EX) as [|C]; [contradiction|].
    eapply collision_incl; [|exact C]. apply incl_app; apply p_each_asked; assumption.
  - apply N.mul_le_mono_r. apply N.mul_le_mono; [exact QW|]. eapply N.le_trans; [|exact QW]. lia.
Qed.
Lemma bad_total : (sum (fun e => sum (fun f => sum (fun c => bad U A (X e f) c f) Cs) Fs) Es <=
  2 ^ 256 * (N.of_nat q * N.of_nat (length Fs) + N.of_nat (length (filter doubled Fs)) * 2 ^ 64))%N.
Proof.
  rewrite sum_swap.
  apply (N.le_trans _ (sum (fun f => (N.of_nat q + ind (doubled f) * 2 ^ 64) * 2 ^ 256)%N Fs)).
  - apply sum_le. intros f _. rewrite sum_swap, <- LC, (N.mul_comm _ (N.of_nat (length Cs))), <- sum_same. apply sum_le. intros c _.
    unfold doubled. destruct (dup_dec (fun e => X e f) Es NE) as [I|_].
    + cbn [ind]. rewrite N.mul_0_l, N.add_0_r. apply (bad_all U A n q Es X f c (few c) NE I).
    + cbn [ind]. rewrite N.mul_1_l, <- LE. eapply N.le_trans; [apply bad_any|]. lia.
  - rewrite sum_mul, sum_add, sum_same, sum_mul, sum_ind. lia.
Qed.
Lemma both k k0 : counts (guesses U src A) k -> counts (guesses_blind U A) k0 ->
  let err := ((N.of_nat q * 2 ^ 192 + 2 ^ 127 * (work * work)) * 2 ^ (256 * N.of_nat (length U)))%N in
  (k * 2 ^ 192 <= k0 + err /\ k0 <= k * 2 ^ 192 + err)%N.
Proof.
  intros C C0 err. rewrite (guesses_sum k C), (blind_sum k0 C0).
  set (R := sum (fun e => sum (fun f => yes U A (table U f (X e f)) f) Fs) Es). set (I0 := sum (fun f => sum (fun c => yes U A c f) Cs) Fs).
  assert (BT := bad_total). assert (DF := doubled_few). set (BB := sum _ Es) in BT. set (d := N.of_nat (length (filter doubled Fs))) in *.
  set (T := (2 ^ (256 * N.of_nat (length U)))%N) in *. rewrite NF in BT.
  assert (O : forall e, _ /\ _) by (intros e; exact (one_entropy U Fs Cs A (X e) (proj1 UU) LF NC IC (fun f _ => X_in e f) (fun f c _ => X_put e f c))).
  assert (P1 : (R * 2 ^ 256 <= I0 * 2 ^ 64 + BB)%N).
  { unfold R, BB. rewrite <- sum_mul, <- LE, (N.mul_comm I0), <- sum_same, <- sum_add. apply sum_le. intros e _. rewrite <- LC. apply O. }
  assert (P2 : (I0 * 2 ^ 64 <= R * 2 ^ 256 + BB)%N).
  { unfold R, BB. rewrite <- sum_mul, <- LE, (N.mul_comm I0), <- sum_same, <- sum_add. apply sum_le. intros e _. rewrite <- LC. apply O. }
  assert (K : (BB <= 2 ^ 64 * err)%N).
  { eapply N.le_trans; [exact BT|]. unfold err. fold T. set (W := (work * work)%N).
    replace ((2 ^ 64 * work) * (2 ^ 64 * work))%N with (2 ^ 128 * W)%N in DF by (unfold W; change (2 ^ 128)%N with (2 ^ 64 * 2 ^ 64)%N; ring).
    replace (2 ^ 64 * ((N.of_nat q * 2 ^ 192 + 2 ^ 127 * W) * T))%N with (2 ^ 256 * (N.of_nat q * T) + 2 ^ 191 * W * T)%N
      by (change (2 ^ 256)%N with (2 ^ 192 * 2 ^ 64)%N; change (2 ^ 191)%N with (2 ^ 127 * 2 ^ 64)%N; ring).
    rewrite N.mul_add_distr_l. apply N.add_le_mono_l.
    replace (2 ^ 256 * (d * 2 ^ 64))%N with ((d * 2 ^ 257) * 2 ^ 63)%N by (change (2 ^ 257)%N with (2 ^ 256 * 2)%N; change (2 ^ 64)%N with (2 ^ 63 * 2)%N; ring).
    eapply N.le_trans; [apply N.mul_le_mono_r, DF|]. apply N.eq_le_incl. change (2 ^ 191)%N with (2 ^ 128 * 2 ^ 63)%N. ring. }
  clearbody R I0 BB err. clear - P1 P2 K. change (2 ^ 256)%N with (2 ^ 192 * 2 ^ 64)%N in *. set (M := (2 ^ 64)%N) in *. set (Z := (2 ^ 192)%N) in *.
  assert (0 < M)%N by reflexivity. clearbody M Z. split; apply (N.mul_le_mono_pos_r _ _ M); try assumption; nia.
Qed.
End Count.

Lemma c93_blind : forall n U q D (A : bytes32 -> prog bool) src k k0 (strings : universe n U) (short : 162 <= n)
  (few : forall c, modest n q (A c)) (valid : valid_source src) (hidden : blinded D src)
  (real : counts (guesses U src A) k) (ideal : counts (guesses_blind U A) k0),
  let error := ((N.of_nat q * 2 ^ 192 + 2 ^ 127 * (2 * 2 ^ N.of_nat D + 2) ^ 2) * 2 ^ (256 * N.of_nat (length U)))%N in
  (k * 2 ^ 192 <= k0 + error /\ k0 <= k * 2 ^ 192 + error)%N.
Proof.
  intros n U q D A src k k0 UU S F V Bl R I0. cbv zeta. rewrite N.pow_2_r. destruct (below (2 ^ 64)) as (Es & NE & IE & LE). destruct (c86_all (length U)) as (Fs & LF & NF).
  destruct all_ids as (Cs & NC & IC & LC). destruct Bl as (S0 & t & Et & Dt & Fr).
  exact (both n U q D A src t Es Fs Cs UU S F V (conj S0 (ex_intro _ t (conj Et (conj Dt Fr)))) Et NE IE LE LF NF NC IC LC k k0 R I0).
Qed.
Lemma c93_hiding : forall n U q D (A : bytes32 -> prog bool) src1 src2 k1 k2 (strings : universe n U) (short : 162 <= n)
  (few : forall c, modest n q (A c)) (valid1 : valid_source src1) (valid2 : valid_source src2)
  (hidden1 : blinded D src1) (hidden2 : blinded D src2)
  (yes1 : counts (guesses U src1 A) k1) (yes2 : counts (guesses U src2 A) k2),
  (k1 * 2 ^ 64 <= k2 * 2 ^ 64 + (2 * N.of_nat q * 2 ^ 64 + (2 * 2 ^ N.of_nat D + 2) ^ 2) * 2 ^ (256 * N.of_nat (length U)))%N.
Proof.
  intros n U q D A src1 src2 k1 k2 UU S F V1 V2 B1 B2 C1 C2.
  assert (EX : exists k0, counts (guesses_blind U A) k0).
  { destruct (c86_all (length U)) as (Fs & LF & NF). destruct all_ids as (Cs & NC & IC & LC). eexists.
    apply (counts_exist _ (fun cf => exec (table U (snd cf)) (A (fst cf))) (list_prod Cs Fs)); [apply NoDup_prod; [exact NC|apply LF]|].
    intros [c f]. cbn [fst snd guesses_blind]. rewrite in_prod_iff, (proj2 LF f). pose proof (IC c). tauto. }
  destruct EX as [k0 C0].
  destruct (c93_blind n U q D A src1 k1 k0 UU S F V1 B1 C1 C0) as [L1 _]. destruct (c93_blind n U q D A src2 k2 k0 UU S F V2 B2 C2 C0) as [_ L2].
  set (T := (2 ^ (256 * N.of_nat (length U)))%N) in *. set (W := ((2 * 2 ^ N.of_nat D + 2) ^ 2)%N) in *. clearbody T W.
  assert (P : (0 < 2 ^ 128)%N) by reflexivity. apply (N.mul_le_mono_pos_r _ _ (2 ^ 128) P).
  change (2 ^ 192)%N with (2 ^ 64 * 2 ^ 128)%N in *. change (2 ^ 128)%N with (2 * 2 ^ 127)%N in *.
  set (M := (2 ^ 64)%N) in *. set (Z := (2 ^ 127)%N) in *. clearbody M Z. nia.
Qed.

(** ** Searching for the entropy *)
Lemma work_mono d D : d <= D -> 2 * 2 ^ d + 2 <= 2 * 2 ^ D + 2.
Proof. intros L. pose proof (Nat.pow_le_mono_r 2 d D). lia. Qed.
Section Attack.
Variables (n : nat) (U : list (list byte)) (D : nat) (src1 src2 : multi_source) (t1 t2 : merkle_tree) (L : list N).
Hypothesis UU : universe n U.
Hypothesis short : 162 <= n.
Hypothesis V1 : valid_source src1.
Hypothesis V2 : valid_source src2.
Hypothesis S1 : ms_static_entropy src1 = None.
Hypothesis S2 : ms_static_entropy src2 = None.
Hypothesis E1 : try_commit src1 (Some 0%N) = Ret (Ok t1).
Hypothesis E2 : try_commit src2 (Some 0%N) = Ret (Ok t2).
Hypothesis D1 : mt_depth t1 <= D.
Hypothesis D2 : mt_depth t2 <= D.
Hypothesis differ : ms_messages src1 <> ms_messages src2.
Hypothesis LB : forall e, In e L -> (e < 2 ^ 64)%N.
Hypothesis covers : forall H e, (e < 2 ^ 64)%N -> exists e', In e' L /\ H (last_string H (with_entropy t1 e)) = H (last_string H (with_entropy t1 e')).

Definition search (c : bytes32) : prog bool := andthen (p_each t1 L) (fun cs => Done (existsb (b32_eqb c) cs)).
Lemma search_modest c : modest n (length L * (2 * 2 ^ D + 2)) (search c).
Proof.
  apply (modest_mono n _ (length L * (2 * 2 ^ mt_depth t1 + 2) + 0)).
  - rewrite Nat.add_0_r. apply Nat.mul_le_mono_l. apply work_mono, D1.
  - apply modest_andthen; [apply p_each_modest, short|intros; exact I].
Qed.
Lemma search_exec H c : exec H (search c) = true <-> exists e, In e L /\ c = H (last_string H (with_entropy t1 e)).
Proof.
  unfold search. rewrite exec_andthen, p_each_exec. cbn [exec]. rewrite existsb_exists. split.
  - intros (x & I & E). apply b32_eqb_eq in E. subst x. apply in_map_iff in I as (e & <- & I). eauto.
  - intros (e & I & ->). eexists. split; [apply in_map_iff; exists e; split; [reflexivity|exact I]|]. apply b32_eqb_eq. reflexivity.
Qed.
Lemma search_finds k : counts (guesses U src1 search) k -> k = (2 ^ 64 * 2 ^ (256 * N.of_nat (length U)))%N.
Proof.
  intros C. destruct (below (2 ^ 64)) as (Es & NE & IE & LE). destruct (c86_all (length U)) as (Fs & LF & NF).
  rewrite (counts_ind (guesses U src1 search) (fun _ => true) (list_prod Es Fs) k).
  - cbn [ind]. rewrite sum_same, prod_length, Nat2N.inj_mul, LE, NF. apply N.mul_1_r.
  - apply NoDup_prod; [exact NE|apply LF].
  - intros [e f]. rewrite in_prod_iff, IE, (proj2 LF f). unfold guesses. split; [tauto|]. intros [[B Lf] _]. split; [exact B|split; [exact Lf|]].
    exists (with_entropy t1 e), (table U f (last_string (table U f) (with_entropy t1 e))).
    split; [exact (commit_entropy src1 0 e t1 S1 E1)|split].
    + apply (commit_last (table U f) Debug (with_entropy t1 e)). exact (gt_depth _ (try_commit_good _ _ _ V1 E1)).
    + apply search_exec. apply (covers (table U f) e B).
  - exact C.
Qed.
Lemma search_misses k : counts (guesses U src2 search) k ->
  (k * 2 ^ 257 <= 2 ^ 64 * (N.of_nat (length L + 1) * (2 * 2 ^ N.of_nat D + 2)) ^ 2 * 2 ^ (256 * N.of_nat (length U)))%N.
Proof.
  intros C. destruct (below (2 ^ 64)) as (Es & NE & IE & LE). destruct (c86_all (length U)) as (Fs & LF & NF).
  pose proof (gt_depth _ (try_commit_good _ _ _ V2 E2)) as Dt.
  rewrite (counts_ind (guesses U src2 search)
    (fun ef => exec (table U (snd ef)) (search (table U (snd ef) (last_string (table U (snd ef)) (with_entropy t2 (fst ef)))))) (list_prod Es Fs) k).
  - rewrite sum_prod, <- sum_mul, <- LE, <- N.mul_assoc, <- sum_same. apply sum_le. intros e Ie. cbn [fst snd]. rewrite sum_ind.
    set (Q := length L * (2 * 2 ^ D + 2) + (2 * 2 ^ D + 2)).
    assert (QW : N.of_nat Q = (N.of_nat (length L + 1) * (2 * 2 ^ N.of_nat D + 2))%N).
    { unfold Q. rewrite !Nat2N.inj_add, !Nat2N.inj_mul, !Nat2N.inj_add, Nat2N.inj_mul, Nat2N.inj_pow. change (N.of_nat 2) with 2%N. change (N.of_nat 1) with 1%N. ring. }
    eapply N.le_trans; [apply (c92_birthday n U _ (andthen (p_each t1 L) (fun _ => p_tree (with_entropy t2 e))) Q UU)|].
    + apply modest_andthen.
      * apply (modest_mono n _ (length L * (2 * 2 ^ mt_depth t1 + 2))); [|apply p_each_modest, short].
        apply Nat.mul_le_mono_l. apply work_mono, D1.
      * intros _. apply (modest_mono n _ (2 * 2 ^ mt_depth t2 + 2)); [|apply (p_tree_modest (with_entropy t2 e)), short].
        apply work_mono, D2.
    + apply NoDup_filter, LF.
    + intros f If. apply filter_In in If as [If B]. split; [apply LF, If|]. apply search_exec in B as (e' & Ie' & EQ).
      pose proof (commit_entropy src1 0 e' t1 S1 E1) as M1. pose proof (commit_entropy src2 0 e t2 S2 E2) as M2.
      destruct (c27_tree_binding (table U f) Debug src1 (Some e') _ src2 (Some e) _ (table U f (last_string (table U f) (with_entropy t1 e'))) V1 V2
        (LB e' Ie') (proj1 (IE e) Ie) M1 M2) as [(_ & _ & X & _)|X].
      * apply commit_last. exact (gt_depth _ (try_commit_good _ _ _ V1 E1)).
      * rewrite <- EQ. apply commit_last. exact Dt.
      * exfalso. apply differ. rewrite (messages_kept src1 _ _ V1 M1), (messages_kept src2 _ _ V2 M2) in X. exact X.
      * eapply collision_incl; [|exact X]. eapply incl_tran; [|apply both_asked].
        apply incl_app; [apply incl_appl, p_each_asked, Ie'|apply incl_appr, p_tree_asked].
    + rewrite N.pow_2_r, <- QW. apply N.mul_le_mono_r, N.mul_le_mono_l. clearbody Q. clear. lia.
  - apply NoDup_prod; [exact NE|apply LF].
  - intros [e f]. cbn [fst snd]. rewrite in_prod_iff, IE, (proj2 LF f). unfold guesses. split.
    + intros (B & Lf & t & c & M & T & R). split; [auto|]. rewrite (commit_entropy src2 0 e t2 S2 E2) in M. injection M as <-.
      rewrite (commit_last (table U f) Debug (with_entropy t2 e) Dt) in T. injection T as <-. exact R.
    + intros [[B Lf] R]. split; [exact B|split; [exact Lf|]]. eexists _, _.
      split; [exact (commit_entropy src2 0 e t2 S2 E2)|split; [apply (commit_last (table U f) Debug (with_entropy t2 e) Dt)|exact R]].
  - exact C.
Qed.
End Attack.

Lemma c93_search : forall n U D src1 src2 t1 t2 (strings : universe n U) (short : 162 <= n)
  (valid1 : valid_source src1) (valid2 : valid_source src2)
  (drawn1 : ms_static_entropy src1 = None) (drawn2 : ms_static_entropy src2 = None)
  (made1 : try_commit src1 (Some 0%N) = Ret (Ok t1)) (made2 : try_commit src2 (Some 0%N) = Ret (Ok t2))
  (depth1 : mt_depth t1 <= D) (depth2 : mt_depth t2 <= D) (different : ms_messages src1 <> ms_messages src2),
  exists A q, (forall c, modest n q (A c)) /\ N.of_nat q = (2 ^ 64 * (2 * 2 ^ N.of_nat D + 2))%N /\
    forall k1 k2, counts (guesses U src1 A) k1 -> counts (guesses U src2 A) k2 ->
      (k1 = 2 ^ 64 * 2 ^ (256 * N.of_nat (length U)) /\
       k2 * 2 ^ 257 <= 2 ^ 64 * ((2 ^ 64 + 1) * (2 * 2 ^ N.of_nat D + 2)) ^ 2 * 2 ^ (256 * N.of_nat (length U)))%N.
Proof.
  intros n U D src1 src2 t1 t2 UU S V1 V2 S1 S2 E1 E2 D1 D2 X. destruct (below (2 ^ 64)) as (L & NL & IL & LL).
  exists (search t1 L), (length L * (2 * 2 ^ D + 2)). split; [intros c; eapply search_modest; eassumption|split].
  - rewrite Nat2N.inj_mul, LL. f_equal. rewrite Nat2N.inj_add, Nat2N.inj_mul, Nat2N.inj_pow. reflexivity.
  - intros k1 k2 C1 C2. split.
    + apply (search_finds U src1 t1 L); try assumption; [intros e I; apply IL, I|]. intros H e B. exists e. split; [apply IL, B|reflexivity].
    + rewrite <- LL at 2. replace (N.of_nat (length L) + 1)%N with (N.of_nat (length L + 1)) by (rewrite Nat2N.inj_add; reflexivity).
      apply (search_misses n U D src1 src2 t1 t2 L); try assumption; [intros e I; apply IL, I|]. intros H e B. exists e. split; [apply IL, B|reflexivity].
Qed.
Lemma c93_full : forall n U D src1 src2 t1 t2 (strings : universe n U) (short : 162 <= n)
  (valid1 : valid_source src1) (valid2 : valid_source src2)
  (drawn1 : ms_static_entropy src1 = None) (drawn2 : ms_static_entropy src2 = None)
  (made1 : try_commit src1 (Some 0%N) = Ret (Ok t1)) (made2 : try_commit src2 (Some 0%N) = Ret (Ok t2))
  (depth1 : mt_depth t1 <= D) (depth2 : mt_depth t2 <= D) (different : ms_messages src1 <> ms_messages src2)
  (full : (N.of_nat (length (ms_messages src1)) = 2 ^ N.of_nat (mt_depth t1))%N),
  exists A, (forall c, modest n (2 * 2 ^ D + 2) (A c)) /\
    forall k1 k2, counts (guesses U src1 A) k1 -> counts (guesses U src2 A) k2 ->
      (k1 = 2 ^ 64 * 2 ^ (256 * N.of_nat (length U)) /\
       k2 * 2 ^ 257 <= 2 ^ 64 * (2 * (2 * 2 ^ N.of_nat D + 2)) ^ 2 * 2 ^ (256 * N.of_nat (length U)))%N.
Proof.
  intros n U D src1 src2 t1 t2 UU S V1 V2 S1 S2 E1 E2 D1 D2 X F.
  exists (search t1 [0%N]). split; [intros c; rewrite <- (Nat.mul_1_l (2 * 2 ^ D + 2)); change 1 with (length [0%N]); eapply search_modest; eassumption|].
  assert (LB : forall e, In e [0%N] -> (e < 2 ^ 64)%N) by (intros e [<-|[]]; reflexivity).
  assert (CV : forall (H : Hasher) e, (e < 2 ^ 64)%N -> exists e', In e' [0%N] /\ H (last_string H (with_entropy t1 e)) = H (last_string H (with_entropy t1 e'))).
  { intros H e B. exists 0%N. split; [left; reflexivity|].
    pose proof (gt_depth _ (try_commit_good _ _ _ V1 E1)) as Dt.
    assert (Q : @tree_commit_id H Debug (with_entropy t1 e) = @tree_commit_id H Debug (with_entropy t1 0)).
    { destruct src1 as [mth d msgs s]. cbn [ms_static_entropy] in S1. subst s. cbn [ms_messages] in F.
      eapply (c62_full H Debug mth d msgs None None (Some e) (Some 0%N)); try exact V1; [exact (commit_entropy (MultiSource mth d msgs None) 0 e t1 eq_refl E1)|exact (commit_entropy (MultiSource mth d msgs None) 0 0 t1 eq_refl E1)|exact F]. }
    rewrite (commit_last H Debug (with_entropy t1 e) Dt), (commit_last H Debug (with_entropy t1 0) Dt) in Q. injection Q as Q. exact Q. }
  intros k1 k2 C1 C2. split.
  - apply (search_finds U src1 t1 [0%N]); assumption.
  - apply (search_misses n U D src1 src2 t1 t2 [0%N]); assumption.
Qed.

(** ** What the numbers mean *)
Lemma c93_meaning : forall n U (A : bytes32 -> prog bool) src D (strings : universe n U) (valid : valid_source src) (hidden : blinded D src),
  (exists k, counts (guesses U src A) k) /\ (exists k0, counts (guesses_blind U A) k0) /\
  counts (guesses U src (fun _ => Done true)) (2 ^ 64 * 2 ^ (256 * N.of_nat (length U))) /\
  counts (guesses_blind U (fun _ => Done true)) (2 ^ 256 * 2 ^ (256 * N.of_nat (length U))).
Proof.
  intros n U A src D UU V Bl. destruct (below (2 ^ 64)) as (Es & NE & IE & LE). destruct (c86_all (length U)) as (Fs & LF & NF).
  destruct all_ids as (Cs & NC & IC & LC). pose proof Bl as (S0 & t & Et & Dt & Fr).
  split; [|split; [|split]].
  - eexists. apply (counts_exist _ (fun ef => exec (table U (snd ef)) (A (table U (snd ef) (X U t (fst ef) (snd ef))))) (list_prod Es Fs)).
    + apply NoDup_prod; [exact NE|apply LF].
    + intros [e f]. apply (guesses_bool U D A src t Es Fs V Bl Et IE LF).
  - eexists. apply (counts_exist _ (fun cf => exec (table U (snd cf)) (A (fst cf))) (list_prod Cs Fs)); [apply NoDup_prod; [exact NC|apply LF]|].
    intros [c f]. cbn [fst snd guesses_blind]. rewrite in_prod_iff, (proj2 LF f). pose proof (IC c). tauto.
  - exists (list_prod Es Fs). split; [apply NoDup_prod; [exact NE|apply LF]|split].
    + intros [e f]. rewrite (guesses_bool U D (fun _ => Done true) src t Es Fs V Bl Et IE LF). cbn [exec]. tauto.
    + rewrite prod_length, Nat2N.inj_mul, LE, NF. reflexivity.
  - exists (list_prod Cs Fs). split; [apply NoDup_prod; [exact NC|apply LF]|split].
    + intros [c f]. cbn [guesses_blind exec]. rewrite in_prod_iff, (proj2 LF f). pose proof (IC c). tauto.
    + rewrite prod_length, Nat2N.inj_mul, LC, NF. reflexivity.
Qed.
(** 2^40 questions against trees of depth at most 16: the chances differ by less than 2^-22. *)
Lemma c93_numbers : forall n U q (A : bytes32 -> prog bool) src1 src2 k1 k2 all (strings : universe n U) (short : 162 <= n)
  (few : forall c, modest n q (A c)) (work : (N.of_nat q <= 2 ^ 40)%N) (valid1 : valid_source src1) (valid2 : valid_source src2)
  (hidden1 : blinded 16 src1) (hidden2 : blinded 16 src2)
  (yes1 : counts (guesses U src1 A) k1) (yes2 : counts (guesses U src2 A) k2)
  (total : counts (guesses U src1 (fun _ => Done true)) all),
  (k1 * 2 ^ 22 <= k2 * 2 ^ 22 + all)%N.
Proof.
  intros n U q A src1 src2 k1 k2 all UU S F W V1 V2 B1 B2 C1 C2 CT.
  pose proof (c93_hiding n U q 16 A src1 src2 k1 k2 UU S F V1 V2 B1 B2 C1 C2) as X.
  destruct (c93_meaning n U A src1 16 UU V1 B1) as (_ & _ & M & _).
  assert (T : all = (2 ^ 64 * 2 ^ (256 * N.of_nat (length U)))%N).
  { destruct CT as (La & NLa & ILa & <-), M as (Lb & NLb & ILb & <-). f_equal. apply Nat.le_antisymm; apply NoDup_incl_length; try assumption;
      intros x I; [apply ILb, ILa, I|apply ILa, ILb, I]. }
  rewrite T. set (P := (2 ^ (256 * N.of_nat (length U)))%N) in *. clearbody P. clear - X W.
  change ((2 * 2 ^ N.of_nat 16 + 2) ^ 2)%N with 17180393476%N in X.
  assert (Y : (2 * N.of_nat q * 2 ^ 64 + 17180393476 <= 2 ^ 106)%N).
  { eapply N.le_trans; [apply N.add_le_mono_r, N.mul_le_mono_r, N.mul_le_mono_l, W|]. vm_compute. discriminate. }
  assert (Z : (k1 * 2 ^ 64 <= k2 * 2 ^ 64 + 2 ^ 106 * P)%N).
  { eapply N.le_trans; [exact X|]. apply N.add_le_mono_l, N.mul_le_mono_r, Y. }
  change (2 ^ 64)%N with (2 ^ 42 * 2 ^ 22)%N in Z at 1 2. change (2 ^ 106)%N with (2 ^ 42 * 2 ^ 64)%N in Z.
  assert (0 < 2 ^ 42)%N by reflexivity. set (M := (2 ^ 42)%N) in *. set (K := (2 ^ 22)%N) in *. set (J := (2 ^ 64)%N) in *. clearbody M K J.
  apply (N.mul_le_mono_pos_l _ _ M); [assumption|]. nia.
Qed.
