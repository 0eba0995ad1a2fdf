(** C117: which of two chosen sets of messages a partially revealed block belongs to stays hidden. *)
From Verif Require Import Base BaseFacts OrdMap Strict Merkle MpcAtoms MpcTree MpcBlock.
From Verif Require Import SpecHash SpecTree SpecMerkle SpecFull SpecLocal SpecValid SpecFind SpecBlock SpecCommit SpecCount SpecGame SpecHideGame SpecViewGame SpecBlockGame SpecTalk SpecMany SpecPick SpecOffer.
From Verif Require Import HashFacts TreeFacts MerkleProofs MpcTreeProofs ConcealProofs LocalProofs DerivedProofs CountProofs GameProofs GameHideProofs GameViewProofs HideProofs.
From Verif Require Import TheoremsMpc TheoremsMore TheoremsBlock TheoremsLocal TheoremsHide TheoremsCount TheoremsFind TheoremsGame TheoremsHideGame TheoremsViewGame PathProofs TheoremsBlockGame TheoremsTalk TheoremsMany TheoremsSalt TheoremsOpen TheoremsChoice TheoremsPick OfferProofs.
From Verif Require Import SpecGame.
Local Open Scope nat_scope.

(** ** The block which is given *)
Definition cut_nodes (t : merkle_tree) (ids : list bytes32) : list nd := tops (tcells t) (mem ids) (mt_depth t) 0.
Definition cut_make (m : method) (t : merkle_tree) (ids : list bytes32) (hs : list bytes32) : merkle_block :=
  MBlock m (mt_depth t) (mt_cofactor t) (flatten 0 (fst (rebuild (tcells t) (mem ids) (mt_depth t) 0 hs))) None.
Lemma cut_given md D ids src t U f e : fine D ids src t ->
  exists n, @conceal_except (table U f) md (@block_of_tree (table U f) (with_entropy t e)) ids =
    Ret (cut_make (ms_method src) t ids (map (hash_at U t f e) (cut_nodes t ids)), Ok n).
Proof.
  intros (V & S0 & Et & SH & _). eexists. pose proof (commit_entropy src 0 e t S0 Et) as E. pose proof (try_commit_good _ _ _ V E) as G.
  destruct (@block_of_tree_wf (table U f) _ G) as [B1 [_ [B2 B3]]].
  rewrite (@conceal_except_ok (table U f) md _ _ ids B1 B2 (pwf_loose_of _ _ _ B3)).
  - cbn [block_of_tree mb_method mb_depth mb_cofactor with_entropy mt_depth mt_cofactor mt_method]. unfold cut_make.
    pose proof (@rebuild_is (table U f) (mt_depth t) (2 ^ N.of_nat (mt_depth t)) (tcells t) (mem ids) e (mt_depth t) 0 [] (le_n _)) as R.
    rewrite app_nil_r, Nat.sub_diag in R. unfold hash_at, cut_nodes. rewrite R. cbn [fst].
    pose proof (try_commit_spec src (Some e) (proj1 V) (proj1 (proj2 V))) as T. cbv zeta in T. rewrite E in T. destruct T as [_ [_ [TM _]]].
    cbn [with_entropy mt_method] in TM. rewrite TM. reflexivity.
  - intros p I. destruct (SH p I) as [m J1]. apply in_map_iff. exists (p, m). split; [reflexivity|].
    apply tree_full_pleaves; [exact G|]. rewrite (messages_kept src _ _ V E). exact J1.
Qed.
Definition p_shown (t : merkle_tree) (ids : list bytes32) : prog merkle_block :=
  andthen (p_answer t (OpenBlock ids)) (fun x => match x with GivenBlock b => Done b | _ => Done (MBlock Sha256t 0 0 [] None) end).
Lemma shown_exec D ids src t U f e : fine D ids src t ->
  exec (table U f) (p_shown (with_entropy t e) ids) = cut_make (ms_method src) t ids (map (hash_at U t f e) (cut_nodes t ids)).
Proof.
  intros F. pose proof (fine_answers (table U f) D ids src t e F (OpenBlock ids) (fun _ I => I)) as G. unfold p_shown. rewrite exec_andthen.
  destruct (exec (table U f) (p_answer (with_entropy t e) (OpenBlock ids))) as [b|pf|c]; try destruct G.
  destruct (cut_given Debug D ids src t U f e F) as [n X]. rewrite X in H. injection H as <- _. reflexivity.
Qed.
Definition show_work (D : nat) : nat := 3 * 2 ^ D + 2.
Lemma shown_modest {A} n D t ids m (K : merkle_block -> prog A) : 162 <= n -> mt_depth t <= D -> (forall b, modest n m (K b)) ->
  modest n (show_work D + m) (andthen (p_shown t ids) K).
Proof.
  intros N L M. apply modest_nested. apply modest_andthen; [apply p_answer_modest; assumption|]. intros [b|pf|c]; apply M.
Qed.
Lemma tops_length c g k : forall o, length (tops c g k o) <= 2 ^ k.
Proof.
  induction k as [|k IH]; intros o; cbn [tops].
  - destruct (vis c g 0 o); cbn; lia.
  - pose proof (IH o). pose proof (IH (o + 2 ^ N.of_nat k)%N). assert (0 < 2 ^ k) by (clear; induction k; cbn; lia).
    destruct (vis c g (S k) o); [rewrite app_length|]; cbn [length Nat.pow]; lia.
Qed.
Lemma cut_inside t ids k o : In (k, o) (cut_nodes t ids) -> sub (mt_depth t) 0 k o.
Proof. intros I. apply tops_sub in I. tauto. Qed.
Lemma cut_apart t ids k o k3 o3 : In (k, o) (cut_nodes t ids) -> In (k3, o3) (cut_nodes t ids) -> sub k o k3 o3 -> (k, o) = (k3, o3).
Proof.
  intros I I3 SB. unfold cut_nodes in *. apply sub_bounds in SB as (L1 & L2 & L3).
  assert (X : (k = k3 /\ o = o3) \/ (o + 2 ^ N.of_nat k <= o3)%N \/ (o3 + 2 ^ N.of_nat k3 <= o)%N) by exact (tops_disjoint 0 1%N (Nat.le_0_l 31) eq_refl _ _ _ _ _ _ _ _ I I3).
  pose proof (pow_pos k3). destruct X as [[-> ->]|X]; [reflexivity|lia].
Qed.
Lemma fills_more fr h J r : forall cs, length cs = length (filter fr J) -> fills fr h J (cs ++ r) = fills fr h J cs.
Proof.
  induction J as [|x J IH]; intros cs L; [reflexivity|]. cbn [fills filter] in *. destruct (fr x).
  - destruct cs as [|c cs]; [discriminate|]. cbn [app]. rewrite IH; [reflexivity|]. cbn in L. lia.
  - rewrite IH; [reflexivity|exact L].
Qed.

Lemma fewer {A} (g : A -> bool) l : length (filter g l) <= length l.
Proof. induction l as [|x l IH]; [apply le_n|]. cbn [filter]. destruct (g x); cbn [length]; lia. Qed.

(** ** Two alike sources *)
Lemma alike_fine D ids v w b : alike D ids v w -> fine D ids (pick_side b v w) (base_tree (pick_side b v w)).
Proof.
  intros (V1 & V2 & S1 & S2 & QM & SH & t1 & t2 & E1 & E2 & QD & QC & L & SC).
  destruct b; cbn [pick_side]; unfold base_tree; [rewrite E1|rewrite E2]; (split; [assumption|split; [assumption|split; [assumption|]]]);
    (split; [|lia]); intros p I; destruct (SH p I) as (m & X & Y); exists m; assumption.
Qed.
Definition side_view (U : list (list byte)) (b : bool) (ids : list bytes32) (v w : multi_source) : list bytes32 -> list bytes32 -> merkle_block :=
  let src := pick_side b v w in
  TheoremsBlockGame.view U (base_tree src) (cut_nodes (base_tree src) ids) (cut_make (ms_method src) (base_tree src) ids).
Lemma side_view_same U D ids v w f cs : alike D ids v w -> side_view U true ids v w f cs = side_view U false ids v w f cs.
Proof.
  intros (V1 & V2 & S1 & S2 & QM & SH & t1 & t2 & E1 & E2 & QD & QC & L & SC). unfold side_view. cbn [pick_side]. unfold base_tree. rewrite E1, E2.
  pose proof (shown_agree _ _ _ _ _ _ ids V1 V2 E1 E2 QD QC SH) as AG.
  assert (TJ : cut_nodes t2 ids = cut_nodes t1 ids) by (unfold cut_nodes; rewrite <- QD, (tops_same _ _ _ AG); reflexivity).
  rewrite TJ.
  assert (SC' : forall k o, In (k, o) (cut_nodes t1 ids) -> (free_node t1 (k, o) = true /\ free_node t2 (k, o) = true) \/
     forall i, (o <= i < o + 2 ^ N.of_nat k)%N -> tcells t1 i = tcells t2 i).
  { intros k o I. destruct (top_concealed t1 ids k o I) as (a & -> & X). destruct (SC k a X) as [(i1 & i2 & [B1 N1] & [B2 N2])|Y].
    - left. apply within_range in B1, B2. split; apply free_node_iff; [exists i1|exists i2]; split; assumption.
    - right. intros i B. apply Y, within_range, B. }
  assert (FR : forall x, In x (cut_nodes t1 ids) -> free_node t1 x = free_node t2 x).
  { intros [k o] I. destruct (SC' k o I) as [[-> ->]|X]; [reflexivity|]. apply Bool.eq_true_iff_eq. rewrite !free_node_iff.
    split; intros (i & B & N); exists i; (split; [exact B|]); rewrite <- N; [symmetry|]; apply X, B. }
  assert (EV : fills (free_node t1) (hash_at U t1 f 0) (cut_nodes t1 ids) cs = fills (free_node t2) (hash_at U t2 f 0) (cut_nodes t1 ids) cs).
  { apply fills_ext; [exact FR|]. intros [k o] I Fk. unfold hash_at. cbn [fst snd]. rewrite QD. apply nh_cells. intros i Li.
    destruct (SC' k o I) as [[X _]|X]; [congruence|]. unfold lpt. rewrite (X i Li). reflexivity. }
  unfold TheoremsBlockGame.view, cut_make. rewrite EV, QM, QD, QC, (rebuild_same _ _ _ AG). reflexivity.
Qed.

(** ** Offers as programs, up to the first pair for which no entropy is given *)
Definition open_offer : Type := (list bytes32 * multi_source * multi_source * (merkle_block -> offer))%type.
Definition oo_ids (t : open_offer) : list bytes32 := fst (fst (fst t)).
Definition oo_side (b : bool) (t : open_offer) : multi_source := pick_side b (snd (fst (fst t))) (snd (fst t)).
Fixpoint p_offer (bs : list bool) (es : list N) (p : offer) {struct p} : prog (bool + open_offer) :=
  match p with
  | OfferEnd a => Done (inl a)
  | OfferHash s k => Ask s (fun a => p_offer bs es (k a))
  | OfferPair ids v w k =>
      match bs, es with
      | b :: bs', e :: es' => andthen (p_shown (with_entropy (base_tree (pick_side b v w)) e) ids) (fun x => p_offer bs' es' (k x))
      | _, _ => Done (inr (ids, v, w, k))
      end
  end.
Definition p_final (x : bool + open_offer) : prog bool := match x with inl a => Done a | inr _ => Done false end.
Definition p_whole (bs : list bool) (es : list N) (p : offer) : prog bool := andthen (p_offer bs es p) p_final.
Lemma offer_app H b2 l2 p : forall b1 l1, length l1 = length b1 -> exec H (p_offer (b1 ++ b2) (l1 ++ l2) p) =
  match exec H (p_offer b1 l1 p) with inl a => inl a | inr (ids, v, w, k) => exec H (p_offer b2 l2 (OfferPair ids v w k)) end.
Proof.
  induction p as [a|s k IH|ids v w k IH]; intros b1 l1 L; cbn [p_offer exec]; [reflexivity|apply IH, L|].
  destruct b1 as [|b b1], l1 as [|e l1]; try discriminate; [reflexivity|]. cbn [app]. rewrite !exec_andthen. apply IH. cbn in L. lia.
Qed.
Lemma offer_pair n D q r ids v w k : decent n D q r (OfferPair ids v w k) -> alike D ids v w.
Proof. cbn [decent]. destruct r; [intros []|]. intros [A _]. exact A. Qed.
Lemma side_depth D ids v w b e : alike D ids v w -> mt_depth (with_entropy (base_tree (pick_side b v w)) e) <= D.
Proof. intros A. apply (alike_fine D ids v w b A). Qed.
Lemma offer_modest n D p : 162 <= n -> forall q r es bs, decent n D q r p -> modest n (q + r * show_work D) (p_whole bs es p).
Proof.
  intros N. induction p as [a|s k IH|ids v w k IH]; intros q r es bs F; [exact I| |].
  - cbn [decent] in F. destruct q as [|q]; [destruct F|]. cbn. split; [apply F|]. intros a. apply IH, F.
  - unfold p_whole. cbn [p_offer]. destruct bs as [|b bs]; [exact I|]. destruct es as [|e es]; [exact I|].
    pose proof (offer_pair n D q r ids v w k F) as G. cbn [decent] in F. destruct r as [|r]; [destruct F|].
    apply modest_nested. replace (q + S r * show_work D) with (show_work D + (q + r * show_work D)) by lia.
    apply shown_modest; [exact N|apply (side_depth D ids), G|]. intros c. apply IH, F.
Qed.
Lemma offer_then {A} n D (K : bool + open_offer -> prog A) m p : 162 <= n -> (forall a, modest n m (K (inl a))) ->
  (forall q r ids v w k, alike D ids v w -> (forall c, decent n D q r (k c)) -> modest n (m + (q + r * show_work D)) (K (inr (ids, v, w, k)))) ->
  forall q r b1 l1, decent n D q (S r) p -> length b1 <= r -> modest n (m + (q + r * show_work D)) (andthen (p_offer b1 l1 p) K).
Proof.
  intros N K0 K1. induction p as [a|s k IH|ids v w k IH]; intros q r b1 l1 F L.
  - cbn [p_offer andthen]. apply (modest_mono n _ m); [lia|apply K0].
  - cbn [decent] in F. destruct q as [|q]; [destruct F|]. replace (m + (S q + r * show_work D)) with (S (m + (q + r * show_work D))) by lia.
    cbn. split; [apply F|]. intros a. apply IH; [apply F|exact L].
  - assert (LAST : modest n (m + (q + r * show_work D)) (K (inr (ids, v, w, k)))) by (apply K1; apply F).
    cbn [p_offer]. destruct b1 as [|b b1]; [exact LAST|]. destruct l1 as [|e l1]; [exact LAST|]. cbn [length] in L. destruct r as [|r]; [lia|].
    pose proof (offer_pair n D q _ ids v w k F) as G. cbn [decent] in F. apply modest_nested.
    replace (m + (q + S r * show_work D)) with (show_work D + (m + (q + r * show_work D))) by lia.
    apply shown_modest; [exact N|apply (side_depth D ids), G|]. intros c. apply IH; [apply F|lia].
Qed.
Lemma offer_alike H n D p : forall q r bs es ids v w k, decent n D q r p -> exec H (p_offer bs es p) = inr (ids, v, w, k) -> alike D ids v w.
Proof.
  induction p as [a|s k IH|ids v w k IH]; intros q r bs es ids' v' w' k' F X; cbn [decent p_offer exec] in *; [discriminate| |].
  - destruct q as [|q]; [destruct F|]. apply (IH _ q r bs es ids' v' w' k' (proj2 F _) X).
  - destruct r as [|r]; [destruct F|]. destruct F as (V & F). destruct bs as [|b0 bs]; [injection X as <- <- <- <-; assumption|].
    destruct es as [|e es]; [injection X as <- <- <- <-; assumption|]. rewrite exec_andthen in X. apply (IH _ q r bs es ids' v' w' k' (F _) X).
Qed.

(** ** Changing the sides one by one *)
Section OfferSides.
Context (n : nat) (U : list (list byte)) (UU : universe n U) (Fs : list (list bytes32)) (Cs : list bytes32) (Es : list N).
Hypothesis short : 162 <= n.
Hypothesis LF : lists_all Fs (fun f => length f = length U).
Hypothesis NF : N.of_nat (length Fs) = (2 ^ (256 * N.of_nat (length U)))%N.
Hypothesis NC : NoDup Cs.
Hypothesis IC : forall c, In c Cs.
Hypothesis LC : N.of_nat (length Cs) = (2 ^ 256)%N.
Hypothesis NE : NoDup Es.
Hypothesis IE : forall e, In e Es <-> (e < 2 ^ 64)%N.
Hypothesis LE : N.of_nat (length Es) = (2 ^ 64)%N.
Context (D q r : nat) (p : offer).
Hypothesis few : decent n D q (S r) p.
Definition offer_sum (bs : list bool) : N := sum (fun es => sum (fun f => ind (exec (table U f) (p_whole bs es p))) Fs) (tuples Es (length bs)).
Definition oo_tree (b : bool) (t : open_offer) : merkle_tree := base_tree (oo_side b t).
Definition oo_nodes (b : bool) (t : open_offer) : list nd := cut_nodes (oo_tree b t) (oo_ids t).
Definition oo_strings (b : bool) (t : open_offer) (e : N) (f : list bytes32) : list (list byte) := TheoremsBlockGame.strings U (oo_tree b t) (oo_nodes b t) e f.
Definition oo_view (b : bool) (t : open_offer) : list bytes32 -> list bytes32 -> merkle_block := side_view U b (oo_ids t) (snd (fst (fst t))) (snd (fst t)).
Definition oo_clean (b : bool) (t : open_offer) (f : list bytes32) : bool := TheoremsBlockGame.clean U (oo_tree b t) Es f.
Definition p_offer_after (b2 : list bool) (l2 : list N) (t : open_offer) (x : merkle_block) : prog bool := p_whole b2 l2 (snd t x).
Lemma oo_alike f b1 l1 t : exec (table U f) (p_offer b1 l1 p) = inr t -> alike D (oo_ids t) (snd (fst (fst t))) (snd (fst t)).
Proof. destruct t as [[[ids v] w] k]. intros X. exact (offer_alike _ n D p q (S r) b1 l1 ids v w k few X). Qed.
Lemma oo_fine f b1 l1 b t : exec (table U f) (p_offer b1 l1 p) = inr t -> fine D (oo_ids t) (oo_side b t) (oo_tree b t).
Proof. intros X. apply alike_fine, (oo_alike f b1 l1 t X). Qed.
Lemma oo_real f b1 l1 b t e : exec (table U f) (p_offer b1 l1 p) = inr t ->
  oo_view b t f (map (table U f) (oo_strings b t e f)) = exec (table U f) (p_shown (with_entropy (oo_tree b t) e) (oo_ids t)).
Proof.
  intros X. pose proof (oo_fine f b1 l1 b t X) as F. rewrite (shown_exec D _ (oo_side b t) _ U f e F).
  unfold oo_view, side_view, oo_strings, oo_nodes, oo_tree, oo_side in *.
  eapply view_real; try eassumption; [apply F|apply cut_inside].
Qed.
Lemma offer_sum_at b1 b b2 : offer_sum (b1 ++ b :: b2) =
  sum (fun l1 => sum (fun l2 => sum (fun e => sum (fun f =>
    answer U (p_show (p_offer b1 l1 p) (p_offer_after b2 l2)) (lv U (p_offer b1 l1 p) (oo_view b))
      (map (table U f) (lX U (p_offer b1 l1 p) (oo_strings b) e f)) f f) Fs) Es)
    (tuples Es (length b2))) (tuples Es (length b1)).
Proof.
  unfold offer_sum. rewrite app_length. cbn [length]. rewrite tuples_sum_app. apply sum_ext. intros l1 I1. apply tuples_among in I1 as [L1 _].
  rewrite tuples_next. apply sum_ext. intros l2 _. apply sum_ext. intros e _. apply sum_ext. intros f _. unfold answer. f_equal.
  unfold p_whole, p_show, lv, lX. rewrite !exec_andthen, (offer_app _ (b :: b2) (e :: l2) p b1 l1 L1).
  destruct (exec (table U f) (p_offer b1 l1 p)) as [a|t] eqn:X; [reflexivity|]. rewrite (oo_real f b1 l1 b t e X).
  destruct t as [[[ids v] w] k]. cbn [p_offer]. rewrite exec_andthen. unfold p_offer_after, p_whole. rewrite exec_andthen. reflexivity.
Qed.
Definition offer_all : nat := length Es * tree_work D + (q + r * show_work D).
Lemma offer_dirty b1 l1 b : length b1 <= r ->
  (N.of_nat (length (filter (fun f => negb (lcl U (p_offer b1 l1 p) (oo_clean b) f)) Fs)) * 2 ^ 257 <= N.of_nat offer_all * N.of_nat offer_all * N.of_nat (length Fs))%N.
Proof.
  intros L. rewrite NF.
  set (K := fun x : bool + open_offer => match x with inl _ => Done [] | inr t => p_each (oo_tree b t) Es end).
  eapply N.le_trans; [apply (c92_birthday n U _ (andthen (p_offer b1 l1 p) K) offer_all UU)|].
  - apply (offer_then n D); [exact short|intros; exact I| |exact few|exact L].
    intros q0 r0 ids v w k A _. apply (modest_mono n _ (length Es * tree_work D)); [lia|]. unfold K.
    apply (modest_mono n _ (length Es * (2 * 2 ^ mt_depth (oo_tree b (ids, v, w, k)) + 2))); [|apply p_each_modest, short].
    apply Nat.mul_le_mono_l, work_mono. exact (side_depth D ids v w b 0 A).
  - apply NoDup_filter, LF.
  - intros f J. apply filter_In in J as [J B]. split; [apply LF, J|]. unfold lcl in B.
    destruct (exec (table U f) (p_offer b1 l1 p)) as [|t] eqn:E; [discriminate|]. unfold oo_clean, TheoremsBlockGame.clean in B.
    destruct (@coll_dec (table U f) (asked_all U (oo_tree b t) Es f)) as [Co|]; [|discriminate].
    eapply collision_incl; [|exact Co]. rewrite asked_andthen, E. apply incl_appr, incl_refl.
  - apply N.mul_le_mono_r, N.mul_le_mono_l. lia.
Qed.
Lemma offer_value b1 l1 b2 l2 b : length b1 + length b2 = r ->
  near (sum (fun e => sum (fun f => answer U (p_show (p_offer b1 l1 p) (p_offer_after b2 l2)) (lv U (p_offer b1 l1 p) (oo_view b))
      (map (table U f) (lX U (p_offer b1 l1 p) (oo_strings b) e f)) f f) Fs) Es * N.of_nat (length (tuples Cs (2 ^ D))))
    (sum (fun f => sum (fun c => answer U (p_show (p_offer b1 l1 p) (p_offer_after b2 l2)) (lv U (p_offer b1 l1 p) (oo_view b)) c f f) (tuples Cs (2 ^ D))) Fs * N.of_nat (length Es))
    (2 * (N.of_nat (q + r * show_work D) * N.of_nat (length Fs) + N.of_nat (length (filter (fun f => negb (lcl U (p_offer b1 l1 p) (oo_clean b) f)) Fs)) * N.of_nat (length Es)) * N.of_nat (length (tuples Cs (2 ^ D)))).
Proof.
  intros R. apply (show_value n U UU Fs Cs Es LF NC IC NE (p_offer b1 l1 p) (2 ^ D) (oo_strings b) (oo_view b) (p_offer_after b2 l2) (q + r * show_work D) (oo_clean b)).
  - intros x. unfold p_show. apply (offer_then n D _ 0); [exact short|intros; exact I| |exact few|lia].
    intros q0 r0 ids v w k _ F. destruct x as [x|]; [|exact I]. apply (offer_modest n D); [exact short|apply F].
  - intros f t e X. pose proof (oo_fine f b1 l1 b t X) as F.
    assert (SI : incl (oo_strings b t e f) U /\ length (oo_strings b t e f) = length (blind_nodes (oo_tree b t) (oo_nodes b t))).
    { eapply strings_in; try eassumption. apply F. }
    destruct SI as [I1 I2]. split; [exact I1|]. rewrite I2. unfold blind_nodes.
    pose proof (fewer (free_node (oo_tree b t)) (oo_nodes b t)) as L1.
    pose proof (tops_length (tcells (oo_tree b t)) (mem (oo_ids t)) (mt_depth (oo_tree b t)) 0) as L2.
    assert (L3 : 2 ^ mt_depth (oo_tree b t) <= 2 ^ D) by (apply Nat.pow_le_mono_r; [discriminate|apply F]). unfold oo_nodes, cut_nodes in *. lia.
  - intros f t e X C Ie. pose proof (oo_fine f b1 l1 b t X) as F. eapply strings_NoDup; try eassumption; try apply F; [apply tops_NoDup|apply cut_inside].
  - intros f t e c X C Ie. pose proof (oo_fine f b1 l1 b t X) as F. eapply strings_stay; try eassumption; try apply F; [apply cut_inside|apply cut_apart].
  - intros f t e c d X C Ie. pose proof (oo_fine f b1 l1 b t X) as F. eapply view_stays; try eassumption; try apply F; [apply cut_inside|apply cut_apart].
  - intros f t e cs r0 X L. unfold oo_view, side_view, TheoremsBlockGame.view. f_equal. apply fills_more. rewrite L. apply map_length.
  - intros f t e e' x X C Ie Ie' J J'. pose proof (oo_fine f b1 l1 b t X) as F. unfold oo_strings, oo_clean in *.
    eapply (strings_apart n U D (oo_side b t) (oo_tree b t) (oo_nodes b t) (fun x => x) Es Fs Cs); try eassumption; try apply F. apply cut_inside.
Qed.
Lemma ideal_same b1 l1 b2 l2 b b' :
  sum (fun f => sum (fun c => answer U (p_show (p_offer b1 l1 p) (p_offer_after b2 l2)) (lv U (p_offer b1 l1 p) (oo_view b)) c f f) (tuples Cs (2 ^ D))) Fs =
  sum (fun f => sum (fun c => answer U (p_show (p_offer b1 l1 p) (p_offer_after b2 l2)) (lv U (p_offer b1 l1 p) (oo_view b')) c f f) (tuples Cs (2 ^ D))) Fs.
Proof.
  apply sum_ext. intros f _. apply sum_ext. intros c _. unfold answer. do 3 f_equal. unfold lv.
  destruct (exec (table U f) (p_offer b1 l1 p)) as [a|t] eqn:X; [reflexivity|]. f_equal. unfold oo_view.
  pose proof (side_view_same U D _ _ _ f c (oo_alike f b1 l1 t X)) as S. destruct b, b'; congruence.
Qed.
Definition offer_error : N := (2 ^ 257 * N.of_nat (q + r * show_work D) + N.of_nat (length Es) * (N.of_nat offer_all * N.of_nat offer_all))%N.
Lemma one_offer b1 b b' b2 : length b1 + length b2 = r ->
  (offer_sum (b1 ++ b :: b2) * 2 ^ 257 <= offer_sum (b1 ++ b' :: b2) * 2 ^ 257 +
    4 * offer_error * N.of_nat (length Es) ^ N.of_nat r * N.of_nat (length Fs))%N.
Proof.
  intros R. rewrite !offer_sum_at. rewrite <- R.
  rewrite Nat2N.inj_add, N.pow_add_r, <- !tuples_length.
  replace (4 * offer_error * (N.of_nat (length (tuples Es (length b1))) * N.of_nat (length (tuples Es (length b2)))) * N.of_nat (length Fs))%N
    with (N.of_nat (length (tuples Es (length b1))) * (N.of_nat (length (tuples Es (length b2))) * (4 * offer_error * N.of_nat (length Fs))))%N
    by (set (a := length (tuples Es (length b1))); set (d := length (tuples Es (length b2))); lia).
  rewrite <- !sum_mul, <- sum_same, <- sum_add. apply sum_le. intros l1 I1. rewrite <- !sum_mul, <- sum_same, <- sum_add. apply sum_le. intros l2 I2.
  apply tuples_among in I1 as [L1 F1], I2 as [L2 F2].
  destruct (offer_value b1 l1 b2 l2 b R) as [X _]. destruct (offer_value b1 l1 b2 l2 b' R) as [_ Y]. rewrite (ideal_same b1 l1 b2 l2 b b') in X.
  pose proof (offer_dirty b1 l1 b ltac:(lia)) as D1. pose proof (offer_dirty b1 l1 b' ltac:(lia)) as D2.
  assert (LP : (0 < N.of_nat (length (tuples Cs (2 ^ D))))%N) by (rewrite tuples_length, LC; apply N.neq_0_lt_0, N.pow_nonzero; discriminate).
  unfold offer_error. set (qq := N.of_nat (q + r * show_work D)) in *. set (qa := (N.of_nat offer_all * N.of_nat offer_all)%N) in *.
  set (d1 := N.of_nat (length (filter (fun f => negb (lcl U (p_offer b1 l1 p) (oo_clean b) f)) Fs))) in *.
  set (d2 := N.of_nat (length (filter (fun f => negb (lcl U (p_offer b1 l1 p) (oo_clean b') f)) Fs))) in *.
  set (k := N.of_nat (length (tuples Cs (2 ^ D)))) in *.
  apply (N.mul_le_mono_pos_r _ _ k); [exact LP|].
  set (a := sum _ Es) in X |- *.
  match type of Y with (_ <= ?s * k + _)%N => set (d := s) in * end.
  match type of X with (_ <= ?s * _ + _)%N => set (m := s) in * end. set (F := N.of_nat (length Fs)) in *. set (E := N.of_nat (length Es)) in *.
  set (Z := (2 ^ 257)%N) in *. clearbody a d m k F E Z d1 d2 qq qa. clear - X Y D1 D2.
  assert (A1 : (a * k <= d * k + 2 * (qq * F + d1 * E) * k + 2 * (qq * F + d2 * E) * k)%N) by lia.
  apply (N.mul_le_mono_r _ _ Z) in A1. apply (N.mul_le_mono_r _ _ (E * k)) in D1. apply (N.mul_le_mono_r _ _ (E * k)) in D2. lia.
Qed.
Lemma all_offers b b' : forall j i, i + j = S r ->
  (offer_sum (repeat b' i ++ repeat b j) * 2 ^ 257 <= offer_sum (repeat b' (S r)) * 2 ^ 257 +
    N.of_nat j * (4 * offer_error * N.of_nat (length Es) ^ N.of_nat r * N.of_nat (length Fs)))%N.
Proof.
  induction j as [|j IH]; intros i E.
  - change (repeat b 0) with (@nil bool). rewrite app_nil_r. replace i with (S r) by lia. lia.
  - specialize (IH (S i) ltac:(lia)). change (repeat b (S j)) with (b :: repeat b j).
    pose proof (one_offer (repeat b' i) b b' (repeat b j) ltac:(rewrite !repeat_length; lia)) as X.
    replace (repeat b' i ++ b' :: repeat b j) with (repeat b' (S i) ++ repeat b j) in X
      by (change (b' :: repeat b j) with ([b'] ++ repeat b j); rewrite app_assoc; f_equal; apply (repeat_cons i b')).
    rewrite Nat2N.inj_succ, N.mul_succ_l. lia.
Qed.
End OfferSides.

(** ** Offers and their programs *)
Lemma offered_iff n D md U f p first : forall q r es a, decent n D q r p -> length es = r ->
  offered (table U f) md first es p a <-> exec (table U f) (p_offer (repeat first r) es p) = inl a.
Proof.
  induction p as [a0|s k IH|ids v w k IH]; intros q r es a F L; cbn [p_offer exec] in *.
  - split; [inversion 1; reflexivity|intros X; injection X as <-; constructor].
  - cbn [decent] in F. destruct q as [|q]; [destruct F|]. rewrite <- (IH _ q r es a (proj2 F _) L). split; [inversion 1; assumption|apply of_hash].
  - pose proof (alike_fine D ids v w first (offer_pair n D q r ids v w k F)) as G. cbn [decent] in F. destruct r as [|r]; [destruct F|]. destruct F as (A & F).
    destruct es as [|e es]; [discriminate|]. injection L as L.
    cbn [repeat p_offer]. rewrite exec_andthen, (shown_exec D ids (pick_side first v w) _ U f e G).
    destruct (cut_given md D ids _ _ U f e G) as [n' C]. pose proof G as (V & S0 & M0 & _). pose proof (commit_entropy _ 0 e _ S0 M0) as M.
    rewrite <- (IH _ q r es a (F _) L). unfold pick_side in *. split.
    + inversion 1; subst. match goal with X : try_commit _ (Some e) = _ |- _ => rewrite M in X; injection X as <- end.
      match goal with X : conceal_except _ _ _ = Ret _ |- _ => rewrite C in X; injection X as <- _ end. assumption.
    + apply (of_pair (table U f) md first e es ids v w k _ _ _ a M C).
Qed.
Lemma offer_ends H n D p : forall q r first es, decent n D q r p -> length es = r -> exists a, exec H (p_offer (repeat first r) es p) = inl a.
Proof.
  induction p as [a|s k IH|ids v w k IH]; intros q r first es F L; cbn [decent p_offer exec] in *; [exists a; reflexivity| |].
  - destruct q as [|q]; [destruct F|]. apply (IH _ q r first es (proj2 F _) L).
  - destruct r as [|r]; [destruct F|]. destruct es as [|e es]; [discriminate|]. cbn [repeat]. rewrite exec_andthen.
    apply (IH _ q r first es (proj2 F _)). injection L as L. exact L.
Qed.
Lemma final_true H x : exec H (p_final x) = true <-> x = inl true.
Proof. destruct x as [[]|]; cbn; split; intros X; try discriminate X; try reflexivity. Qed.

Section OfferCounts.
Context (n D : nat) (U : list (list byte)) (Fs : list (list bytes32)) (LF : lists_all Fs (fun f => length f = length U)) (md : mode) (Es : list N).
Hypothesis NE : NoDup Es.
Hypothesis IE : forall e, In e Es <-> (e < 2 ^ 64)%N.
Context (q r : nat) (p : offer).
Hypothesis F : decent n D q r p.
Lemma guesses_offer_iff first ef : guesses_offer U md r first p ef <->
  In ef (list_prod (tuples Es r) Fs) /\ exec (table U (snd ef)) (p_whole (repeat first r) (fst ef) p) = true.
Proof.
  destruct ef as [es f]. cbn [fst snd]. unfold guesses_offer, p_whole. rewrite in_prod_iff, tuples_among, (proj2 LF f), exec_andthen, final_true.
  assert (FE : Forall (fun e => (e < 2 ^ 64)%N) es <-> Forall (fun e => In e Es) es) by (split; apply Forall_impl; intros e; apply IE).
  split.
  - intros (L & Le & B & X). apply (offered_iff n D md U f p first q r es true F Le) in X. tauto.
  - intros (((Le & B) & L) & X). apply FE in B. split; [exact L|split; [exact Le|split; [exact B|]]].
    apply (offered_iff n D md U f p first q r es true F Le). exact X.
Qed.
Lemma offer_count first k : counts (guesses_offer U md r first p) k -> k = offer_sum U Fs Es p (repeat first r).
Proof.
  intros C. unfold offer_sum. rewrite repeat_length.
  rewrite (counts_ind _ _ (list_prod (tuples Es r) Fs) k (NoDup_prod _ _ (tuples_NoDup Es _ NE) (proj1 LF)) (guesses_offer_iff first) C).
  apply sum_prod.
Qed.
Lemma offer_count_exist first : counts (guesses_offer U md r first p) (offer_sum U Fs Es p (repeat first r)).
Proof.
  unfold offer_sum. rewrite repeat_length.
  rewrite <- (sum_prod (fun x => ind (exec (table U (snd x)) (p_whole (repeat first r) (fst x) p)))).
  apply counts_exist; [apply NoDup_prod; [apply tuples_NoDup, NE|apply LF]|]. apply guesses_offer_iff.
Qed.
End OfferCounts.

Lemma c117_choice : forall n U q r D md (p : offer) first k1 k2 (strings : universe n U) (short : 162 <= n) (allowed : decent n D q r p)
  (yes1 : counts (guesses_offer U md r first p) k1) (yes2 : counts (guesses_offer U md r (negb first) p) k2),
  let asked := (N.of_nat q + (N.of_nat r - 1) * (3 * 2 ^ N.of_nat D + 2))%N in
  let all := (asked + 2 ^ 64 * (2 * 2 ^ N.of_nat D + 2))%N in
  (k1 * 2 ^ 191 <= k2 * 2 ^ 191 + N.of_nat r * (2 ^ 193 * asked + all ^ 2) * (2 ^ 64) ^ (N.of_nat r - 1) * 2 ^ (256 * N.of_nat (length U)))%N.
Proof.
  intros n U q r D md p first k1 k2 UU N F R1 R2. cbv zeta.
  destruct (below (2 ^ 64)) as (Es & NE & IE & LE). destruct (c86_all (length U)) as (Fs & LF & NF). destruct all_ids as (Cs & NC & IC & LC).
  rewrite (offer_count n D U Fs LF md Es NE IE q r p F first k1 R1), (offer_count n D U Fs LF md Es NE IE q r p F (negb first) k2 R2).
  destruct r as [|r]; [cbn [repeat]; apply N.le_add_r|].
  pose proof (all_offers n U UU Fs Cs Es N LF NF NC IC LC NE IE LE D q r p F first (negb first) (S r) 0 eq_refl) as X.
  change (repeat (negb first) 0 ++ repeat first (S r)) with (repeat first (S r)) in X. unfold offer_error, offer_all in X.
  replace (N.of_nat (length Es * tree_work D + (q + r * show_work D))) with (N.of_nat q + N.of_nat r * (3 * 2 ^ N.of_nat D + 2) + 2 ^ 64 * (2 * 2 ^ N.of_nat D + 2))%N in X.
  2: { unfold tree_work, show_work. rewrite <- LE, !Nat2N.inj_add, !Nat2N.inj_mul, !Nat2N.inj_add, !Nat2N.inj_mul, Nat2N.inj_pow. change (N.of_nat 2) with 2%N. change (N.of_nat 3) with 3%N. ring. }
  replace (N.of_nat (q + r * show_work D)) with (N.of_nat q + N.of_nat r * (3 * 2 ^ N.of_nat D + 2))%N in X.
  2: { unfold show_work. rewrite !Nat2N.inj_add, !Nat2N.inj_mul, !Nat2N.inj_add, Nat2N.inj_mul, Nat2N.inj_pow. change (N.of_nat 2) with 2%N. change (N.of_nat 3) with 3%N. ring. }
  rewrite LE, NF in X. replace (N.of_nat (S r) - 1)%N with (N.of_nat r) by lia. rewrite N.pow_2_r.
  set (as_ := (N.of_nat q + N.of_nat r * (3 * 2 ^ N.of_nat D + 2))%N) in *. set (al := (as_ + _)%N) in *. set (T := (2 ^ (256 * N.of_nat (length U)))%N) in *.
  set (y := ((2 ^ 64) ^ N.of_nat r)%N) in *. set (s1 := offer_sum _ _ _ _ _) in *. set (s2 := offer_sum _ _ _ _ (repeat (negb first) _)) in *. set (rr := N.of_nat (S r)) in *.
  clearbody as_ al T y s1 s2 rr. clear - X.
  change (2 ^ 257)%N with (2 ^ 64 * (4 * 2 ^ 191))%N in X. change (2 ^ 193)%N with (4 * 2 ^ 191)%N. assert (P : (0 < 4 * 2 ^ 64)%N) by reflexivity.
  apply (N.mul_le_mono_pos_r _ _ _ P). generalize dependent (2 ^ 191)%N. generalize dependent (2 ^ 64)%N. intros. lia.
Qed.

Lemma c117_meaning : forall n U q r D md (p : offer) first (strings : universe n U) (allowed : decent n D q r p),
  (forall f es (len_f : length f = length U) (len_es : length es = r),
     exists a, offered (table U f) md first es p a /\ forall b, offered (table U f) md first es p b -> b = a) /\
  (exists k, counts (guesses_offer U md r first p) k) /\
  counts (guesses_offer U md r first (OfferEnd true)) ((2 ^ 64) ^ N.of_nat r * 2 ^ (256 * N.of_nat (length U))).
Proof.
  intros n U q r D md p first UU F. destruct (below (2 ^ 64)) as (Es & NE & IE & LE). destruct (c86_all (length U)) as (Fs & LF & NF).
  split; [|split].
  - intros f es _ L. destruct (offer_ends (table U f) n D p q r first es F L) as [a X]. exists a.
    split; [apply (offered_iff n D md U f p first q r es a F L), X|]. intros b Y.
    apply (offered_iff n D md U f p first q r es b F L) in Y. congruence.
  - eexists. apply (offer_count_exist n D U Fs LF md Es NE IE q r p F first).
  - pose proof (offer_count_exist n D U Fs LF md Es NE IE 0 r (OfferEnd true) I first) as C. unfold offer_sum, p_whole in C. cbn [p_offer andthen p_final exec ind] in C.
    rewrite sum_same, sum_same, tuples_length, repeat_length, LE, NF, N.mul_1_r in C. exact C.
Qed.

Lemma c117_numbers : forall n U q r md (p : offer) first k1 k2 all (strings : universe n U) (short : 162 <= n) (allowed : decent n 16 q r p)
  (work : (N.of_nat q <= 2 ^ 40)%N) (many : (N.of_nat r <= 2 ^ 10)%N)
  (yes1 : counts (guesses_offer U md r first p) k1) (yes2 : counts (guesses_offer U md r (negb first) p) k2)
  (total : counts (guesses_offer U md r first (OfferEnd true)) all),
  (k1 * 2 ^ 11 <= k2 * 2 ^ 11 + all)%N.
Proof.
  intros n U q r md p first k1 k2 all UU N F Q M R1 R2 T.
  pose proof (c117_choice n U q r 16 md p first k1 k2 UU N F R1 R2) as X. cbv zeta in X.
  destruct (below (2 ^ 64)) as (Es & NE & IE & LE). destruct (c86_all (length U)) as (Fs & LF & NF).
  rewrite (offer_count n 16 U Fs LF md Es NE IE 0 r (OfferEnd true) I first all T). unfold offer_sum, p_whole. cbn [p_offer andthen p_final exec ind].
  rewrite sum_same, sum_same, tuples_length, repeat_length, LE, NF. clear T R1 R2 F N.
  change (2 * 2 ^ N.of_nat 16 + 2)%N with (2 ^ 17 + 2)%N in X. change (3 * 2 ^ N.of_nat 16 + 2)%N with (3 * 2 ^ 16 + 2)%N in X.
  set (rr := N.of_nat r) in *. set (f := (2 ^ (256 * N.of_nat (length U)))%N) in *.
  destruct (N.eq_dec rr 0) as [Z|Z]; [rewrite Z in *; lia|].
  replace ((2 ^ 64) ^ rr)%N with (2 ^ 64 * (2 ^ 64) ^ (rr - 1))%N by (rewrite <- N.pow_succ_r'; f_equal; lia).
  set (y := ((2 ^ 64) ^ (rr - 1))%N) in *. set (a := (N.of_nat q + (rr - 1) * (3 * 2 ^ 16 + 2))%N) in *.
  assert (B : (rr * (2 ^ 193 * a + (a + 2 ^ 64 * (2 ^ 17 + 2)) ^ 2) * 2 ^ 11 <= 2 ^ 191 * 2 ^ 64)%N).
  { assert (B1 : (a <= 2 ^ 40 + 2 ^ 10 * (3 * 2 ^ 16 + 2))%N) by (unfold a; lia).
    transitivity (2 ^ 10 * (2 ^ 193 * (2 ^ 40 + 2 ^ 10 * (3 * 2 ^ 16 + 2)) + ((2 ^ 40 + 2 ^ 10 * (3 * 2 ^ 16 + 2)) + 2 ^ 64 * (2 ^ 17 + 2)) ^ 2) * 2 ^ 11)%N; [|vm_compute; discriminate].
    apply N.mul_le_mono_r, N.mul_le_mono; [exact M|]. apply N.add_le_mono; [apply N.mul_le_mono_l, B1|]. apply N.pow_le_mono_l, N.add_le_mono_r, B1. }
  set (e := (rr * (2 ^ 193 * a + (a + 2 ^ 64 * (2 ^ 17 + 2)) ^ 2))%N) in *. clearbody y f e. apply (N.mul_le_mono_r _ _ (2 ^ 11)) in X. rewrite N.mul_add_distr_r in X.
  apply (N.mul_le_mono_r _ _ (y * f)) in B. assert (P : (0 < 2 ^ 191)%N) by reflexivity. apply (N.mul_le_mono_pos_r _ _ _ P).
  clear - X B. generalize dependent (2 ^ 191)%N. generalize dependent (2 ^ 64)%N. generalize dependent (2 ^ 11)%N. intros. lia.
Qed.
