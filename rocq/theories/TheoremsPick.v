(** C116: which of two chosen sets of messages a commitment belongs to stays hidden. *)
From Verif Require Import Base BaseFacts OrdMap Strict Merkle MpcAtoms MpcTree MpcBlock.
From Verif Require Import SpecHash SpecTree SpecMerkle SpecFull SpecValid SpecFind SpecBlock SpecCommit SpecCount SpecGame SpecHideGame SpecPick.
From Verif Require Import MerkleProofs MpcTreeProofs CountProofs GameProofs GameHideProofs TheoremsMpc TheoremsCount TheoremsGame TheoremsHideGame TheoremsSalt TheoremsOpen TheoremsChoice.
Local Open Scope nat_scope.

(** ** The trees *)
Definition base_tree (src : multi_source) : merkle_tree :=
  match try_commit src (Some 0%N) with Ret (Ok t) => t | _ => MTree Sha256t 0 0 0 [] [] end.
Definition good_pick (D : nat) (src : multi_source) : Prop := valid_source src /\ blinded D src.
Lemma base_made D src : good_pick D src -> try_commit src (Some 0%N) = Ret (Ok (base_tree src)).
Proof. intros (_ & _ & t & E & _). unfold base_tree. rewrite E. reflexivity. Qed.
Lemma base_depth D src : good_pick D src -> mt_depth (base_tree src) <= D.
Proof. intros (_ & _ & t & E & L & _). unfold base_tree. rewrite E. exact L. Qed.
Lemma base_depth31 D src : good_pick D src -> mt_depth (base_tree src) <= 31.
Proof. intros G. exact (gt_depth _ (try_commit_good _ _ _ (proj1 G) (base_made D src G))). Qed.
Lemma base_entropy D src e : good_pick D src -> try_commit src (Some e) = Ret (Ok (with_entropy (base_tree src) e)).
Proof. intros G. apply (commit_entropy src 0); [apply G|apply (base_made D), G]. Qed.

(** ** Bargains as programs, up to the first pair for which no entropy is given *)
Definition pick_side (b : bool) (v w : multi_source) : multi_source := if b then v else w.
Definition open_deal : Type := (multi_source * multi_source * (bytes32 -> bargain))%type.
Fixpoint p_deal (bs : list bool) (es : list N) (p : bargain) {struct p} : prog (bool + open_deal) :=
  match p with
  | Decide a => Done (inl a)
  | AskDigest s k => Ask s (fun a => p_deal bs es (k a))
  | AskCommitment v w k =>
      match bs, es with
      | b :: bs', e :: es' => andthen (p_tree (with_entropy (base_tree (pick_side b v w)) e)) (fun c => p_deal bs' es' (k c))
      | _, _ => Done (inr (v, w, k))
      end
  end.
Definition p_decide (x : bool + open_deal) : prog bool := match x with inl a => Done a | inr _ => Done false end.
Definition p_bargain (bs : list bool) (es : list N) (p : bargain) : prog bool := andthen (p_deal bs es p) p_decide.
Lemma deal_app H b2 l2 p : forall b1 l1, length l1 = length b1 -> exec H (p_deal (b1 ++ b2) (l1 ++ l2) p) =
  match exec H (p_deal b1 l1 p) with inl a => inl a | inr (v, w, k) => exec H (p_deal b2 l2 (AskCommitment v w k)) end.
Proof.
  induction p as [a|s k IH|v w k IH]; intros b1 l1 L; cbn [p_deal exec]; [reflexivity|apply IH, L|].
  destruct b1 as [|b b1], l1 as [|e l1]; try discriminate; [reflexivity|]. cbn [app]. rewrite !exec_andthen. apply IH. cbn in L. lia.
Qed.
Definition tree_work (D : nat) : nat := 2 * 2 ^ D + 2.
Lemma pick_modest {A} n D src e m (K : bytes32 -> prog A) : 162 <= n -> good_pick D src -> (forall c, modest n m (K c)) ->
  modest n (tree_work D + m) (andthen (p_tree (with_entropy (base_tree src) e)) K).
Proof.
  intros N G M. apply modest_andthen; [|exact M]. apply (modest_mono n _ (2 * 2 ^ mt_depth (base_tree src) + 2)).
  - apply work_mono, (base_depth D), G.
  - apply (p_tree_modest (with_entropy (base_tree src) e) n N).
Qed.
Lemma modest_nested {A B C} n (p : prog A) (k : A -> prog B) (k' : B -> prog C) : forall q,
  modest n q (andthen p (fun a => andthen (k a) k')) -> modest n q (andthen (andthen p k) k').
Proof.
  induction p as [a|s c IH]; intros q M; [exact M|]. cbn [andthen modest] in *. destruct q as [|q]; [exact M|].
  split; [apply M|]. intros a. apply IH, M.
Qed.
Lemma proper_side n D q r v w k b : proper n D q r (AskCommitment v w k) -> good_pick D (pick_side b v w).
Proof. cbn [proper]. destruct r; [intros []|]. intros (V & W & _). destruct b; assumption. Qed.
Lemma deal_modest n D p : 162 <= n -> forall q r es bs, proper n D q r p -> modest n (q + r * tree_work D) (p_bargain bs es p).
Proof.
  intros N. induction p as [a|s k IH|v w k IH]; intros q r es bs F; [exact I| |].
  - cbn [proper] in F. destruct q as [|q]; [destruct F|]. cbn. split; [apply F|]. intros a. apply IH, F.
  - unfold p_bargain. cbn [p_deal]. destruct bs as [|b bs]; [exact I|]. destruct es as [|e es]; [exact I|].
    pose proof (proper_side n D q r v w k b F) as G. cbn [proper] in F. destruct r as [|r]; [destruct F|].
    apply modest_nested. replace (q + S r * tree_work D) with (tree_work D + (q + r * tree_work D)) by lia.
    apply pick_modest; [exact N|exact G|]. intros c. apply IH, F.
Qed.

Lemma deal_then {A} n D (K : bool + open_deal -> prog A) m p : 162 <= n -> (forall a, modest n m (K (inl a))) ->
  (forall q r v w k, good_pick D v -> good_pick D w -> (forall c, proper n D q r (k c)) -> modest n (m + (q + r * tree_work D)) (K (inr (v, w, k)))) ->
  forall q r b1 l1, proper n D q (S r) p -> length b1 <= r -> modest n (m + (q + r * tree_work D)) (andthen (p_deal b1 l1 p) K).
Proof.
  intros N K0 K1. induction p as [a|s k IH|v w k IH]; intros q r b1 l1 F L.
  - cbn [p_deal andthen]. apply (modest_mono n _ m); [lia|apply K0].
  - cbn [proper] in F. destruct q as [|q]; [destruct F|]. replace (m + (S q + r * tree_work D)) with (S (m + (q + r * tree_work D))) by lia.
    cbn. split; [apply F|]. intros a. apply IH; [apply F|exact L].
  - assert (LAST : modest n (m + (q + r * tree_work D)) (K (inr (v, w, k)))) by (apply K1; apply F).
    cbn [p_deal]. destruct b1 as [|b b1]; [exact LAST|]. destruct l1 as [|e l1]; [exact LAST|]. cbn [length] in L. destruct r as [|r]; [lia|].
    pose proof (proper_side n D q _ v w k b F) as G. cbn [proper] in F. apply modest_nested.
    replace (m + (q + S r * tree_work D)) with (tree_work D + (m + (q + r * tree_work D))) by lia.
    apply pick_modest; [exact N|exact G|]. intros c. apply IH; [apply F|lia].
Qed.
Lemma deal_good H n D p : forall q r bs es v w k, proper n D q r p -> exec H (p_deal bs es p) = inr (v, w, k) -> good_pick D v /\ good_pick D w.
Proof.
  induction p as [a|s k IH|v w k IH]; intros q r bs es v' w' k' F X; cbn [proper p_deal exec] in *; [discriminate| |].
  - destruct q as [|q]; [destruct F|]. apply (IH _ q r bs es v' w' k' (proj2 F _) X).
  - destruct r as [|r]; [destruct F|]. destruct F as (V & W & F). destruct bs as [|b0 bs]; [injection X as <- <- <-; split; assumption|].
    destruct es as [|e es]; [injection X as <- <- <-; split; assumption|]. rewrite exec_andthen in X. apply (IH _ q r bs es v' w' k' (F _) X).
Qed.

(** ** Changing the sides one by one *)
Section DealSides.
Context (n : nat) (U : list (list byte)) (UU : universe n U) (Fs : list (list bytes32)) (Cs : list bytes32) (Es : list N).
Hypothesis short : 162 <= n.
Hypothesis LF : lists_all Fs (fun f => length f = length U).
Hypothesis NF : N.of_nat (length Fs) = (2 ^ (256 * N.of_nat (length U)))%N.
Hypothesis NC : NoDup Cs.
Hypothesis IC : forall c, In c Cs.
Hypothesis NE : NoDup Es.
Hypothesis IE : forall e, In e Es <-> (e < 2 ^ 64)%N.
Hypothesis some : 0 < length Cs.
Context (D q r : nat) (p : bargain).
Hypothesis few : proper n D q (S r) p.
Definition deal_sum (bs : list bool) : N := sum (fun es => sum (fun f => ind (exec (table U f) (p_bargain bs es p))) Fs) (tuples Es (length bs)).
Definition deal_tree (b : bool) (t : open_deal) : merkle_tree := base_tree (pick_side b (fst (fst t)) (snd (fst t))).
Definition deal_pre (b : bool) (t : open_deal) (e : N) (f : list bytes32) : list byte := last_string (table U f) (with_entropy (deal_tree b t) e).
Definition p_deal_after (b2 : list bool) (l2 : list N) (t : open_deal) (c : bytes32) : prog bool := p_bargain b2 l2 (snd t c).
Lemma deal_sum_at b1 b b2 : deal_sum (b1 ++ b :: b2) =
  sum (fun l1 => sum (fun l2 => sum (fun e => sum (fun f =>
    yes U (p_late (p_deal b1 l1 p) (p_deal_after b2 l2)) (table U f (late_pre U (p_deal b1 l1 p) (deal_pre b) e f)) f) Fs) Es)
    (tuples Es (length b2))) (tuples Es (length b1)).
Proof.
  unfold deal_sum. rewrite app_length. cbn [length]. rewrite tuples_sum_app. apply sum_ext. intros l1 I1. apply tuples_among in I1 as [L1 _].
  rewrite tuples_next. apply sum_ext. intros l2 _. apply sum_ext. intros e _. apply sum_ext. intros f _. unfold yes. f_equal.
  unfold p_bargain, p_late, late_pre. rewrite !exec_andthen, (deal_app _ (b :: b2) (e :: l2) p b1 l1 L1).
  destruct (exec (table U f) (p_deal b1 l1 p)) as [a|[[v w] k]]; [reflexivity|]. cbn [p_deal]. rewrite exec_andthen, p_tree_exec.
  unfold p_deal_after, p_bargain. rewrite exec_andthen. reflexivity.
Qed.
Lemma deal_side_good f b1 l1 b t : exec (table U f) (p_deal b1 l1 p) = inr t -> good_pick D (pick_side b (fst (fst t)) (snd (fst t))).
Proof. destruct t as [[v w] k]. intros X. destruct (deal_good _ n D p q (S r) b1 l1 v w k few X) as [V W]. destruct b; assumption. Qed.

(** Entropies with the same last string *)
Definition deal_dbl (b1 : list bool) (l1 : list N) (b : bool) (f : list bytes32) : bool :=
  match exec (table U f) (p_deal b1 l1 p) with
  | inl _ => false
  | inr t => if dup_dec (fun e => deal_pre b t e f) Es NE then false else true
  end.
Definition deal_all : nat := length Es * tree_work D + (q + r * tree_work D).
Lemma deal_dbl_few b1 l1 b : length b1 <= r ->
  (N.of_nat (length (filter (deal_dbl b1 l1 b) Fs)) * 2 ^ 257 <= N.of_nat deal_all * N.of_nat deal_all * N.of_nat (length Fs))%N.
Proof.
  intros L. rewrite NF.
  set (K := fun x : bool + open_deal => match x with inl _ => Done [] | inr t => p_each (deal_tree b t) Es end).
  eapply N.le_trans; [apply (c92_birthday n U _ (andthen (p_deal b1 l1 p) K) deal_all UU)|].
  - apply (deal_then n D); [exact short|intros; exact I| |exact few|exact L].
    intros q0 r0 v w k V W _. apply (modest_mono n _ (length Es * tree_work D)); [lia|]. unfold K.
    apply (modest_mono n _ (length Es * (2 * 2 ^ mt_depth (deal_tree b (v, w, k)) + 2))); [|apply p_each_modest, short].
    apply Nat.mul_le_mono_l, work_mono. unfold deal_tree. apply (base_depth D). destruct b; assumption.
  - apply NoDup_filter, LF.
  - intros f J. apply filter_In in J as [J B]. split; [apply LF, J|]. unfold deal_dbl in B.
    destruct (exec (table U f) (p_deal b1 l1 p)) as [|t] eqn:E; [discriminate|].
    destruct (dup_dec _ Es NE) as [|(e & e' & Ie & Ie' & N & EX)]; [discriminate|].
    pose proof (deal_side_good f b1 l1 b t E) as G.
    destruct (same_last (table U f) _ _ e e' D (proj1 G) (proj2 G) (base_made D _ G) (proj1 (IE e) Ie) (proj1 (IE e') Ie') EX) as [|C]; [contradiction|].
    eapply collision_incl; [|exact C]. rewrite asked_andthen, E. apply incl_appr. apply incl_app; apply p_each_asked; assumption.
  - apply N.mul_le_mono_r, N.mul_le_mono_l. lia.
Qed.
Definition deal_error : N := (2 ^ 257 * N.of_nat (q + r * tree_work D) + N.of_nat (length Es) * (N.of_nat deal_all * N.of_nat deal_all))%N.
Lemma one_deal b1 b b' b2 : length b1 + length b2 = r ->
  (deal_sum (b1 ++ b :: b2) * 2 ^ 257 <= deal_sum (b1 ++ b' :: b2) * 2 ^ 257 +
    2 * deal_error * N.of_nat (length Es) ^ N.of_nat r * N.of_nat (length Fs))%N.
Proof.
  intros R. rewrite !deal_sum_at. rewrite <- R.
  rewrite Nat2N.inj_add, N.pow_add_r, <- !tuples_length.
  replace (2 * deal_error * (N.of_nat (length (tuples Es (length b1))) * N.of_nat (length (tuples Es (length b2)))) * N.of_nat (length Fs))%N
    with (N.of_nat (length (tuples Es (length b1))) * (N.of_nat (length (tuples Es (length b2))) * (2 * deal_error * N.of_nat (length Fs))))%N
    by (set (a := length (tuples Es (length b1))); set (d := length (tuples Es (length b2))); lia).
  rewrite <- !sum_mul, <- sum_same, <- sum_add. apply sum_le. intros l1 I1. rewrite <- !sum_mul, <- sum_same, <- sum_add. apply sum_le. intros l2 I2.
  apply tuples_among in I1 as [L1 F1], I2 as [L2 F2].
  assert (M : forall c, modest n (q + r * tree_work D) (p_late (p_deal b1 l1 p) (p_deal_after b2 l2) c)).
  { intros c. apply (deal_then n D _ 0); [exact short|intros; exact I| |exact few|lia]. intros q0 r0 v w k _ _ F. apply (deal_modest n D); [exact short|apply F]. }
  assert (V : forall b0, near (sum (fun e => sum (fun f => yes U (p_late (p_deal b1 l1 p) (p_deal_after b2 l2)) (table U f (late_pre U (p_deal b1 l1 p) (deal_pre b0) e f)) f) Fs) Es * N.of_nat (length Cs))
    (sum (fun f => sum (fun c => yes U (p_late (p_deal b1 l1 p) (p_deal_after b2 l2)) c f) Cs) Fs * N.of_nat (length Es))
    ((N.of_nat (q + r * tree_work D) * N.of_nat (length Fs) + N.of_nat (length (filter (deal_dbl b1 l1 b0) Fs)) * N.of_nat (length Es)) * N.of_nat (length Cs))).
  { intros b0. apply (late_value n U UU Fs Cs Es LF NC IC NE (p_deal b1 l1 p) (deal_pre b0) (p_deal_after b2 l2) _ (deal_dbl b1 l1 b0) M).
    - intros f t e _ _. apply (proj2 UU). unfold deal_pre. rewrite last_length. lia.
    - intros f t e c _ _. apply last_other. intros s L. apply put_other. intros E. apply L. rewrite <- E. apply last_length.
    - intros f t e e' E B I I'. unfold deal_dbl in B. rewrite E in B. destruct (dup_dec _ Es NE) as [J|]; [|discriminate]. apply J; assumption. }
  destruct (V b) as [X _]. destruct (V b') as [_ Y]. clear V M.
  pose proof (deal_dbl_few b1 l1 b ltac:(lia)) as D1. pose proof (deal_dbl_few b1 l1 b' ltac:(lia)) as D2.
  unfold deal_error. set (qq := N.of_nat (q + r * tree_work D)) in *. set (qa := (N.of_nat deal_all * N.of_nat deal_all)%N) in *.
  set (d1 := N.of_nat (length (filter (deal_dbl b1 l1 b) Fs))) in *. set (d2 := N.of_nat (length (filter (deal_dbl b1 l1 b') Fs))) in *.
  apply (N.mul_le_mono_pos_r _ _ (N.of_nat (length Cs))); [lia|].
  set (a := sum _ Es) in X |- *.
  set (d := sum (fun e => sum (fun f => yes U (p_late (p_deal b1 l1 p) (p_deal_after b2 l2)) (table U f (late_pre U (p_deal b1 l1 p) (deal_pre b') e f)) f) Fs) Es) in Y |- *.
  set (m := sum (fun f => sum _ Cs) Fs) in X, Y. set (k := N.of_nat (length Cs)) in *. set (F := N.of_nat (length Fs)) in *. set (E := N.of_nat (length Es)) in *.
  set (Z := (2 ^ 257)%N) in *. clearbody a d m k F E Z d1 d2 qq qa. clear - X Y D1 D2.
  assert (A1 : (a * k <= d * k + (qq * F + d1 * E) * k + (qq * F + d2 * E) * k)%N) by lia.
  apply (N.mul_le_mono_r _ _ Z) in A1. apply (N.mul_le_mono_r _ _ (E * k)) in D1. apply (N.mul_le_mono_r _ _ (E * k)) in D2. lia.
Qed.
Lemma all_deals b b' : forall j i, i + j = S r ->
  (deal_sum (repeat b' i ++ repeat b j) * 2 ^ 257 <= deal_sum (repeat b' (S r)) * 2 ^ 257 +
    N.of_nat j * (2 * deal_error * N.of_nat (length Es) ^ N.of_nat r * N.of_nat (length Fs)))%N.
Proof.
  induction j as [|j IH]; intros i E.
  - change (repeat b 0) with (@nil bool). rewrite app_nil_r. replace i with (S r) by lia. lia.
  - specialize (IH (S i) ltac:(lia)). change (repeat b (S j)) with (b :: repeat b j).
    pose proof (one_deal (repeat b' i) b b' (repeat b j) ltac:(rewrite !repeat_length; lia)) as X.
    replace (repeat b' i ++ b' :: repeat b j) with (repeat b' (S i) ++ repeat b j) in X
      by (change (b' :: repeat b j) with ([b'] ++ repeat b j); rewrite app_assoc; f_equal; apply (repeat_cons i b')).
    rewrite Nat2N.inj_succ, N.mul_succ_l. lia.
Qed.
End DealSides.

(** ** Bargains and their programs *)
Lemma deals_iff n D md U f p first : forall q r es a, proper n D q r p -> length es = r -> 
  deals (table U f) md first es p a <-> exec (table U f) (p_deal (repeat first r) es p) = inl a.
Proof.
  induction p as [a0|s k IH|v w k IH]; intros q r es a F L; cbn [p_deal exec] in *.
  - split; [inversion 1; reflexivity|intros X; injection X as <-; constructor].
  - cbn [proper] in F. destruct q as [|q]; [destruct F|]. rewrite <- (IH _ q r es a (proj2 F _) L). split; [inversion 1; assumption|apply de_hash].
  - pose proof (proper_side n D q r v w k first F) as G. cbn [proper] in F. destruct r as [|r]; [destruct F|]. destruct F as (V & W & F).
    destruct es as [|e es]; [discriminate|]. injection L as L.
    cbn [repeat p_deal]. rewrite exec_andthen, p_tree_exec.
    pose proof (base_entropy D _ e G) as M. pose proof (commit_last (table U f) md (with_entropy (base_tree (pick_side first v w)) e) (base_depth31 D _ G)) as C.
    rewrite <- (IH _ q r es a (F _) L). unfold pick_side in *. split.
    + inversion 1; subst. match goal with X : try_commit _ (Some e) = _ |- _ => rewrite M in X; injection X as <- end.
      match goal with X : tree_commit_id _ _ = Ret _ |- _ => rewrite C in X; injection X as <- end. assumption.
    + apply (de_pair (table U f) md first e es v w k _ _ a M C).
Qed.
Lemma deal_ends H n D p : forall q r first es, proper n D q r p -> length es = r -> exists a, exec H (p_deal (repeat first r) es p) = inl a.
Proof.
  induction p as [a|s k IH|v w k IH]; intros q r first es F L; cbn [proper p_deal exec] in *; [exists a; reflexivity| |].
  - destruct q as [|q]; [destruct F|]. apply (IH _ q r first es (proj2 F _) L).
  - destruct r as [|r]; [destruct F|]. destruct es as [|e es]; [discriminate|]. cbn [repeat]. rewrite exec_andthen.
    apply (IH _ q r first es (proj2 (proj2 F) _)). injection L as L. exact L.
Qed.
Lemma decide_true H x : exec H (p_decide x) = true <-> x = inl true.
Proof. destruct x as [[]|]; cbn; split; intros X; try discriminate X; try reflexivity. Qed.

Section DealCounts.
Context (n D : nat) (U : list (list byte)) (Fs : list (list bytes32)) (LF : lists_all Fs (fun f => length f = length U)) (md : mode) (Es : list N).
Hypothesis NE : NoDup Es.
Hypothesis IE : forall e, In e Es <-> (e < 2 ^ 64)%N.
Context (q r : nat) (p : bargain).
Hypothesis F : proper n D q r p.
Lemma picks_side_iff first ef : picks_side U md r first p ef <->
  In ef (list_prod (tuples Es r) Fs) /\ exec (table U (snd ef)) (p_bargain (repeat first r) (fst ef) p) = true.
Proof.
  destruct ef as [es f]. cbn [fst snd]. unfold picks_side, p_bargain. rewrite in_prod_iff, tuples_among, (proj2 LF f), exec_andthen, decide_true.
  assert (FE : Forall (fun e => (e < 2 ^ 64)%N) es <-> Forall (fun e => In e Es) es) by (split; apply Forall_impl; intros e; apply IE).
  split.
  - intros (L & Le & B & X). apply (deals_iff n D md U f p first q r es true F Le) in X. tauto.
  - intros (((Le & B) & L) & X). apply FE in B. split; [exact L|split; [exact Le|split; [exact B|]]].
    apply (deals_iff n D md U f p first q r es true F Le). exact X.
Qed.
Lemma deal_count first k : counts (picks_side U md r first p) k -> k = deal_sum U Fs Es p (repeat first r).
Proof.
  intros C. unfold deal_sum. rewrite repeat_length.
  rewrite (counts_ind _ _ (list_prod (tuples Es r) Fs) k (NoDup_prod _ _ (tuples_NoDup Es _ NE) (proj1 LF)) (picks_side_iff first) C).
  apply sum_prod.
Qed.
Lemma deal_count_exist first : counts (picks_side U md r first p) (deal_sum U Fs Es p (repeat first r)).
Proof.
  unfold deal_sum. rewrite repeat_length.
  rewrite <- (sum_prod (fun x => ind (exec (table U (snd x)) (p_bargain (repeat first r) (fst x) p)))).
  apply counts_exist; [apply NoDup_prod; [apply tuples_NoDup, NE|apply LF]|]. apply picks_side_iff.
Qed.
End DealCounts.

Lemma c116_choice : forall n U q r D md (p : bargain) first k1 k2 (strings : universe n U) (short : 162 <= n) (allowed : proper n D q r p)
  (yes1 : counts (picks_side U md r first p) k1) (yes2 : counts (picks_side U md r (negb first) p) k2),
  let work := (2 * 2 ^ N.of_nat D + 2)%N in
  let asked := (N.of_nat q + (N.of_nat r - 1) * work)%N in
  (k1 * 2 ^ 192 <= k2 * 2 ^ 192 + N.of_nat r * (2 ^ 193 * asked + (asked + 2 ^ 64 * work) ^ 2) * (2 ^ 64) ^ (N.of_nat r - 1) * 2 ^ (256 * N.of_nat (length U)))%N.
Proof.
  intros n U q r D md p first k1 k2 UU N F R1 R2. cbv zeta.
  destruct (below (2 ^ 64)) as (Es & NE & IE & LE). destruct (c86_all (length U)) as (Fs & LF & NF). destruct all_ids as (Cs & NC & IC & LC).
  rewrite (deal_count n D U Fs LF md Es NE IE q r p F first k1 R1), (deal_count n D U Fs LF md Es NE IE q r p F (negb first) k2 R2).
  destruct r as [|r]; [cbn [repeat]; apply N.le_add_r|].
  assert (C0 : 0 < length Cs) by (assert (0 < 2 ^ 256)%N by reflexivity; lia).
  pose proof (all_deals n U UU Fs Cs Es N LF NF NC IC NE IE C0 D q r p F first (negb first) (S r) 0 eq_refl) as X.
  change (repeat (negb first) 0 ++ repeat first (S r)) with (repeat first (S r)) in X. unfold deal_error, deal_all in X.
  replace (N.of_nat (length Es * tree_work D + (q + r * tree_work D))) with (N.of_nat q + N.of_nat r * (2 * 2 ^ N.of_nat D + 2) + 2 ^ 64 * (2 * 2 ^ N.of_nat D + 2))%N in X.
  2: { unfold tree_work. rewrite <- LE, !Nat2N.inj_add, !Nat2N.inj_mul, !Nat2N.inj_add, Nat2N.inj_mul, Nat2N.inj_pow. change (N.of_nat 2) with 2%N. ring. }
  replace (N.of_nat (q + r * tree_work D)) with (N.of_nat q + N.of_nat r * (2 * 2 ^ N.of_nat D + 2))%N in X.
  2: { unfold tree_work. rewrite !Nat2N.inj_add, !Nat2N.inj_mul, !Nat2N.inj_add, Nat2N.inj_mul, Nat2N.inj_pow. change (N.of_nat 2) with 2%N. ring. }
  rewrite LE, NF in X. replace (N.of_nat (S r) - 1)%N with (N.of_nat r) by lia. rewrite N.pow_2_r.
  set (as_ := (N.of_nat q + N.of_nat r * (2 * 2 ^ N.of_nat D + 2))%N) in *. set (al := (as_ + _)%N) in *. set (T := (2 ^ (256 * N.of_nat (length U)))%N) in *.
  set (y := ((2 ^ 64) ^ N.of_nat r)%N) in *. set (s1 := deal_sum _ _ _ _ _) in *. set (s2 := deal_sum _ _ _ _ (repeat (negb first) _)) in *. set (rr := N.of_nat (S r)) in *.
  clearbody as_ al T y s1 s2 rr. clear - X.
  change (2 ^ 257)%N with (2 ^ 64 * (2 * 2 ^ 192))%N in X. change (2 ^ 193)%N with (2 * 2 ^ 192)%N. assert (P : (0 < 2 * 2 ^ 64)%N) by reflexivity.
  apply (N.mul_le_mono_pos_r _ _ _ P). generalize dependent (2 ^ 192)%N. generalize dependent (2 ^ 64)%N. intros. lia.
Qed.

Lemma c116_meaning : forall n U q r D md (p : bargain) first (strings : universe n U) (allowed : proper n D q r p),
  (forall f es (len_f : length f = length U) (len_es : length es = r),
     exists a, deals (table U f) md first es p a /\ forall b, deals (table U f) md first es p b -> b = a) /\
  (exists k, counts (picks_side U md r first p) k) /\
  counts (picks_side U md r first (Decide true)) ((2 ^ 64) ^ N.of_nat r * 2 ^ (256 * N.of_nat (length U))).
Proof.
  intros n U q r D md p first UU F. destruct (below (2 ^ 64)) as (Es & NE & IE & LE). destruct (c86_all (length U)) as (Fs & LF & NF).
  split; [|split].
  - intros f es _ L. destruct (deal_ends (table U f) n D p q r first es F L) as [a X]. exists a.
    split; [apply (deals_iff n D md U f p first q r es a F L), X|]. intros b Y.
    apply (deals_iff n D md U f p first q r es b F L) in Y. congruence.
  - eexists. apply (deal_count_exist n D U Fs LF md Es NE IE q r p F first).
  - pose proof (deal_count_exist n D U Fs LF md Es NE IE 0 r (Decide true) I first) as C. unfold deal_sum, p_bargain in C. cbn [p_deal andthen p_decide exec ind] in C.
    rewrite sum_same, sum_same, tuples_length, repeat_length, LE, NF, N.mul_1_r in C. exact C.
Qed.

Lemma c116_numbers : forall n U q r md (p : bargain) first k1 k2 all (strings : universe n U) (short : 162 <= n) (allowed : proper n 16 q r p)
  (work : (N.of_nat q <= 2 ^ 40)%N) (many : (N.of_nat r <= 2 ^ 10)%N)
  (yes1 : counts (picks_side U md r first p) k1) (yes2 : counts (picks_side U md r (negb first) p) k2)
  (total : counts (picks_side U md r first (Decide true)) all),
  (k1 * 2 ^ 12 <= k2 * 2 ^ 12 + all)%N.
Proof.
  intros n U q r md p first k1 k2 all UU N F Q M R1 R2 T.
  pose proof (c116_choice n U q r 16 md p first k1 k2 UU N F R1 R2) as X. cbv zeta in X.
  destruct (below (2 ^ 64)) as (Es & NE & IE & LE). destruct (c86_all (length U)) as (Fs & LF & NF).
  rewrite (deal_count n 16 U Fs LF md Es NE IE 0 r (Decide true) I first all T). unfold deal_sum, p_bargain. cbn [p_deal andthen p_decide exec ind].
  rewrite sum_same, sum_same, tuples_length, repeat_length, LE, NF. clear T R1 R2 F N.
  change (2 * 2 ^ N.of_nat 16 + 2)%N with (2 ^ 17 + 2)%N in X.
  set (rr := N.of_nat r) in *. set (f := (2 ^ (256 * N.of_nat (length U)))%N) in *.
  destruct (N.eq_dec rr 0) as [Z|Z]; [rewrite Z in *; lia|].
  replace ((2 ^ 64) ^ rr)%N with (2 ^ 64 * (2 ^ 64) ^ (rr - 1))%N by (rewrite <- N.pow_succ_r'; f_equal; lia).
  set (y := ((2 ^ 64) ^ (rr - 1))%N) in *. set (a := (N.of_nat q + (rr - 1) * (2 ^ 17 + 2))%N) in *.
  assert (B : (rr * (2 ^ 193 * a + (a + 2 ^ 64 * (2 ^ 17 + 2)) ^ 2) * 2 ^ 12 <= 2 ^ 192 * 2 ^ 64)%N).
  { assert (B1 : (a <= 2 ^ 40 + 2 ^ 10 * (2 ^ 17 + 2))%N) by (unfold a; lia).
    transitivity (2 ^ 10 * (2 ^ 193 * (2 ^ 40 + 2 ^ 10 * (2 ^ 17 + 2)) + ((2 ^ 40 + 2 ^ 10 * (2 ^ 17 + 2)) + 2 ^ 64 * (2 ^ 17 + 2)) ^ 2) * 2 ^ 12)%N; [|vm_compute; discriminate].
    apply N.mul_le_mono_r, N.mul_le_mono; [exact M|]. apply N.add_le_mono; [apply N.mul_le_mono_l, B1|]. apply N.pow_le_mono_l, N.add_le_mono_r, B1. }
  set (e := (rr * (2 ^ 193 * a + (a + 2 ^ 64 * (2 ^ 17 + 2)) ^ 2))%N) in *. clearbody y f e. apply (N.mul_le_mono_r _ _ (2 ^ 12)) in X. rewrite N.mul_add_distr_r in X.
  apply (N.mul_le_mono_r _ _ (y * f)) in B. assert (P : (0 < 2 ^ 192)%N) by reflexivity. apply (N.mul_le_mono_pos_r _ _ _ P).
  clear - X B. generalize dependent (2 ^ 192)%N. generalize dependent (2 ^ 64)%N. generalize dependent (2 ^ 12)%N. intros. lia.
Qed.
