(** C118: which of two chosen sets of messages were committed to stays hidden, whatever is opened and in whatever order. *)
From Verif Require Import Base BaseFacts OrdMap Strict Merkle MpcAtoms MpcTree MpcBlock.
From Verif Require Import SpecHash SpecTree SpecMerkle SpecFull SpecLocal SpecValid SpecFind SpecBlock SpecCommit SpecCount SpecGame SpecHideGame SpecViewGame SpecBlockGame SpecTalk SpecMany SpecPick SpecOffer SpecPlay.
From Verif Require Import HashFacts TreeFacts MerkleProofs MpcTreeProofs ConcealProofs LocalProofs DerivedProofs CountProofs GameProofs GameHideProofs GameViewProofs HideProofs.
From Verif Require Import TheoremsMpc TheoremsMore TheoremsBlock TheoremsLocal TheoremsHide TheoremsCount TheoremsFind TheoremsGame TheoremsHideGame TheoremsViewGame PathProofs TheoremsBlockGame TheoremsTalk TheoremsMany TheoremsSalt TheoremsOpen TheoremsChoice TheoremsPick OfferProofs TheoremsOffer PlayProofs.
From Verif Require Import SpecGame.
Local Open Scope nat_scope.

(** ** The answers which do not depend on the side *)
Lemma fit_base D src : fit D src -> valid_source src /\ ms_static_entropy src = None /\ try_commit src (Some 0%N) = Ret (Ok (base_tree src)) /\ mt_depth (base_tree src) <= D.
Proof. intros (V & S0 & t & E & L). unfold base_tree. rewrite E. auto. Qed.
Lemma fit_side D v w b : fit D v -> fit D w -> fit D (pick_side b v w).
Proof. intros F G. destruct b; assumption. Qed.
Lemma alike_seemly D ids v w b : alike D ids v w ->
  seemly (base_tree v) (base_tree w) (tcells (base_tree (pick_side b v w))) (mem ids) (mt_depth (base_tree v)) 0 /\
  mt_depth (base_tree (pick_side b v w)) = mt_depth (base_tree v) /\ mt_cofactor (base_tree (pick_side b v w)) = mt_cofactor (base_tree v) /\
  ms_method (pick_side b v w) = ms_method v.
Proof.
  intros (V1 & V2 & S1 & S2 & QM & SH & t1 & t2 & E1 & E2 & QD & QC & L & SC).
  assert (B1 : base_tree v = t1) by (unfold base_tree; rewrite E1; reflexivity). assert (B2 : base_tree w = t2) by (unfold base_tree; rewrite E2; reflexivity).
  pose proof (shown_agree _ _ _ _ _ _ ids V1 V2 E1 E2 QD QC SH) as AG. rewrite B1, B2.
  assert (TP : tops (tcells (base_tree (pick_side b v w))) (mem ids) (mt_depth t1) 0 = tops (tcells t1) (mem ids) (mt_depth t1) 0).
  { destruct b; cbn [pick_side]; [rewrite B1; reflexivity|]. rewrite B2. symmetry. apply tops_same, AG. }
  split; [split|].
  - rewrite TP. intros [k o] I. apply veiled_iff. destruct (top_concealed t1 ids k o I) as (a & -> & X).
    destruct (SC k a X) as [(i1 & i2 & [R1 N1] & [R2 N2])|Y].
    + left. apply within_range in R1, R2. split; apply free_node_iff; [exists i1|exists i2]; split; assumption.
    + right. intros i R. apply Y, within_range, R.
  - intros i p m _ C G. specialize (AG i). destruct b; cbn [pick_side] in C; [rewrite B1 in C|rewrite B2 in C]; rewrite C, G in AG; rewrite C.
    + destruct (tcells t2 i) as [[p' m']|]; [|discriminate]. destruct (mem ids p'); congruence.
    + destruct (tcells t1 i) as [[p' m']|]; [|discriminate]. destruct (mem ids p'); congruence.
  - destruct b; cbn [pick_side]; [rewrite B1|rewrite B2]; auto.
Qed.
Definition seen_nodes (v w : multi_source) : list nd :=
  if (mt_depth (base_tree v) =? mt_depth (base_tree w)) && veiled (base_tree v) (base_tree w) (mt_depth (base_tree v), 0%N)
  then finest (base_tree v) (base_tree w) (mt_depth (base_tree v)) 0 else [].
Definition p_seen (v w : multi_source) (hs : list bytes32) (o : opening) : prog opened :=
  Ask s_node_tag (fun th => p_open th (ms_method v) (mt_depth (base_tree v)) (mt_cofactor (base_tree v))
    (fst (grown (base_tree v) (base_tree w) (mt_depth (base_tree v)) 0 hs)) o).
Lemma seen_modest n D v w hs o : 162 <= n -> mt_depth (base_tree v) <= D -> modest n (show_work D) (p_seen v w hs o).
Proof.
  intros N L. assert (P : 2 ^ mt_depth (base_tree v) <= 2 ^ D) by (apply Nat.pow_le_mono_r; [discriminate|exact L]).
  pose proof (grown_size (base_tree v) (base_tree w) (mt_depth (base_tree v)) 0 hs) as G.
  apply (modest_mono n _ (1 + (2 * 2 ^ mt_depth (base_tree v) + 1))); [unfold show_work; lia|].
  split; [eapply Nat.le_trans; [apply tag_length|exact N]|]. intros th. eapply modest_mono; [|apply p_open_modest, N]. lia.
Qed.
Lemma seen_exec D v w b U f e o : alike D (names o) v w ->
  exec (table U f) (p_seen v w (map (hash_at U (base_tree (pick_side b v w)) f e) (seen_nodes v w)) o) =
  exec (table U f) (p_answer (with_entropy (base_tree (pick_side b v w)) e) o).
Proof.
  intros A. pose proof (alike_fine D (names o) v w b A) as (V & S0 & Et & own & _). destruct (alike_seemly D (names o) v w b A) as (Fr & QD & QC & QM).
  set (t := base_tree (pick_side b v w)) in *. set (t1 := base_tree v) in *. set (t2 := base_tree w) in *.
  pose proof (commit_entropy _ 0 e _ S0 Et) as Ee. pose proof (try_commit_good _ _ _ V Ee) as good.
  pose proof (made_method _ _ _ V Ee) as MM. rewrite QM in MM.
  assert (side : forall i, veiled t1 t2 (0, i) = true -> tcells t i = tcells t1 i).
  { intros i Vi. unfold t, t1. destruct b; cbn [pick_side]; [reflexivity|]. symmetry. apply veiled_leaf, Vi. }
  assert (QB : mt_depth t1 = mt_depth t2) by (destruct (alike_seemly D (names o) v w false A) as (_ & Q & _); symmetry; exact Q).
  pose proof (seemly_veiled t1 t2 (tcells t) (mem (names o)) _ _ Fr) as Vr.
  assert (SN : seen_nodes v w = finest t1 t2 (mt_depth t1) 0) by (unfold seen_nodes; fold t1 t2; rewrite <- QB, Nat.eqb_refl, Vr; reflexivity).
  pose proof (grown_is t1 t2 (table U f) (mt_depth t1) (2 ^ N.of_nat (mt_depth t1)) (tcells t) e side (mt_depth t1) 0 [] Vr) as GI. rewrite app_nil_r in GI.
  unfold p_seen, p_answer. fold t1 t2. cbn [exec]. rewrite exec_andthen, p_slots_exec, SN. unfold hash_at. rewrite QD, GI. cbn [fst].
  rewrite MM. cbn [with_entropy mt_depth mt_cofactor]. rewrite QD, QC.
  change (@slot (table U f) (with_entropy t e)) with (@lpt (table U f) (tcells t) e).
  set (T := trimmed _ _ _ _ _ _ _ _ _).
  destruct o as [ids|pid|]; cbn [p_open names] in *; rewrite !exec_andthen.
  - rewrite !p_restrict_exec. cbn [exec]. do 3 f_equal.
    pose proof (trimmed_restrict t1 t2 (table U f) (mt_depth t1) (2 ^ N.of_nat (mt_depth t1)) (tcells t) e (mem ids) (mt_depth t1) 0 (le_n _) Fr) as [_ X].
    rewrite Nat.sub_diag in X. exact X.
  - cbn [exec]. rewrite p_aside_whole. do 2 f_equal. destruct (own pid (or_introl eq_refl)) as [m J1].
    rewrite <- (messages_kept _ _ _ V Ee) in J1. pose proof (pos_cell _ _ _ good J1) as Q. cbn [with_entropy mt_cofactor mt_depth] in Q. rewrite QC, QD in Q.
    assert (PL : (s_pos pid (mt_cofactor t1) (mt_depth t1) < 2 ^ N.of_nat (mt_depth t1))%N).
    { pose proof (gt_depth _ good) as GD. cbn [with_entropy mt_depth] in GD. rewrite QD in GD. apply pos_spec, GD. }
    assert (MP : mem [pid] pid = true) by (apply mem_In; left; reflexivity).
    pose proof (trimmed_aside t1 t2 (table U f) (mt_depth t1) (2 ^ N.of_nat (mt_depth t1)) (tcells t) e (mem [pid]) _ pid m Q MP (mt_depth t1) 0 (le_n _) Fr) as X.
    rewrite Nat.sub_diag in X. apply X. clear - PL. lia.
  - rewrite !p_hash_exec. f_equal.
    pose proof (trimmed_hash t1 t2 (table U f) (mt_depth t1) (2 ^ N.of_nat (mt_depth t1)) (tcells t) e (mt_depth t1) 0 (le_n _)) as X.
    rewrite Nat.sub_diag in X. unfold T. rewrite X. reflexivity.
Qed.
Lemma seen_veiled v w x : In x (seen_nodes v w) -> veiled (base_tree v) (base_tree w) x = true /\ mt_depth (base_tree v) = mt_depth (base_tree w).
Proof.
  unfold seen_nodes. destruct (_ && _) eqn:E; [|intros []]. apply andb_true_iff in E as [E1 E2]. apply Nat.eqb_eq in E1. intros I.
  split; [eapply finest_veiled; eassumption|exact E1].
Qed.
Lemma seen_inside b v w k o : In (k, o) (seen_nodes v w) -> sub (mt_depth (base_tree (pick_side b v w))) 0 k o.
Proof.
  intros I. pose proof (proj2 (seen_veiled v w _ I)) as Q. unfold seen_nodes in I. destruct (_ && _); [|destruct I]. apply finest_sub in I.
  destruct b; cbn [pick_side]; [|rewrite <- Q]; exact I.
Qed.
Lemma seen_apart v w k o k3 o3 : In (k, o) (seen_nodes v w) -> In (k3, o3) (seen_nodes v w) -> sub k o k3 o3 -> (k, o) = (k3, o3).
Proof. unfold seen_nodes. destruct (_ && _); [|intros []]. apply finest_apart. Qed.
Lemma seen_NoDup v w : NoDup (seen_nodes v w).
Proof. unfold seen_nodes. destruct (_ && _); [apply finest_NoDup|constructor]. Qed.
Lemma seen_length D v w : mt_depth (base_tree v) <= D -> length (seen_nodes v w) <= 2 ^ D.
Proof.
  intros L. unfold seen_nodes. destruct (_ && _); [|cbn; lia].
  eapply Nat.le_trans; [apply finest_length|]. apply Nat.pow_le_mono_r; [discriminate|exact L].
Qed.
Definition seen_view (U : list (list byte)) (b : bool) (v w : multi_source) : list bytes32 -> list bytes32 -> list bytes32 :=
  TheoremsBlockGame.view U (base_tree (pick_side b v w)) (seen_nodes v w) (fun hs => hs).
Lemma seen_view_same U v w f cs : seen_view U true v w f cs = seen_view U false v w f cs.
Proof.
  unfold seen_view, TheoremsBlockGame.view. cbn [pick_side]. set (t1 := base_tree v) in *. set (t2 := base_tree w) in *.
  assert (SC : forall k o, In (k, o) (seen_nodes v w) -> ((free_node t1 (k, o) = true /\ free_node t2 (k, o) = true) \/
     forall i, (o <= i < o + 2 ^ N.of_nat k)%N -> tcells t1 i = tcells t2 i) /\ mt_depth t1 = mt_depth t2).
  { intros k o I. destruct (seen_veiled v w _ I) as [X Y]. apply veiled_iff in X. split; assumption. }
  apply fills_ext.
  - intros [k o] I. destruct (SC k o I) as [[[F1 F2]|X] _]; [congruence|]. apply Bool.eq_true_iff_eq. rewrite !free_node_iff.
    split; intros (i & B & N); exists i; (split; [exact B|]); rewrite <- N; [symmetry|]; apply X, B.
  - intros [k o] I Fk. destruct (SC k o I) as [Y QD]. unfold hash_at. cbn [fst snd]. rewrite QD. apply nh_cells. intros i Li.
    destruct Y as [[X _]|X]; [congruence|]. unfold lpt. rewrite (X i Li). reflexivity.
Qed.

(** ** Plays as programs, up to the first pair for which no entropy is given *)
Definition answerer : Type := opening -> prog opened.
Definition open_play : Type := (multi_source * multi_source * list answerer * play)%type.
Fixpoint p_play (bs : list bool) (es : list N) (ks : list answerer) (p : play) {struct p} : prog (bool + open_play) :=
  match p with
  | PlayEnd a => Done (inl a)
  | PlayHash s k => Ask s (fun a => p_play bs es ks (k a))
  | PlayPair v w k =>
      match bs, es with
      | b :: bs', e :: es' => p_play bs' es' (ks ++ [p_answer (with_entropy (base_tree (pick_side b v w)) e)]) k
      | _, _ => Done (inr (v, w, ks, k))
      end
  | PlayOpen i o k => match nth_error ks i with Some g => andthen (g o) (fun x => p_play bs es ks (k x)) | None => Done (inl false) end
  end.
Definition p_outcome (x : bool + open_play) : prog bool := match x with inl a => Done a | inr _ => Done false end.
Definition p_match (bs : list bool) (es : list N) (ks : list answerer) (p : play) : prog bool := andthen (p_play bs es ks p) p_outcome.
Lemma play_app H b2 l2 p : forall b1 l1 ks, length l1 = length b1 -> exec H (p_play (b1 ++ b2) (l1 ++ l2) ks p) =
  match exec H (p_play b1 l1 ks p) with inl a => inl a | inr (v, w, ks', k) => exec H (p_play b2 l2 ks' (PlayPair v w k)) end.
Proof.
  induction p as [a|s k IH|v w k IH|i o k IH]; intros b1 l1 ks L; cbn [p_play exec]; [reflexivity|apply IH, L| |].
  - destruct b1 as [|b b1], l1 as [|e l1]; try discriminate; [reflexivity|]. cbn [app]. apply IH. cbn in L. lia.
  - destruct (nth_error ks i) as [g|]; [|reflexivity]. rewrite !exec_andthen. apply IH, L.
Qed.
Definition cheap (n D : nat) (ks : list answerer) : Prop := forall g o, In g ks -> modest n (show_work D) (g o).
Lemma cheap_more n D ks g : cheap n D ks -> (forall o, modest n (show_work D) (g o)) -> cheap n D (ks ++ [g]).
Proof. intros C G h o I. apply in_app_or in I as [I|[<-|[]]]; [apply C, I|apply G]. Qed.
Lemma cheap_known n D src e o : 162 <= n -> fit D src -> modest n (show_work D) (p_answer (with_entropy (base_tree src) e) o).
Proof. intros N F. apply p_answer_modest; [exact N|]. apply (fit_base D src F). Qed.
Lemma play_then {A} n D (K : bool + open_play -> prog A) m p : 162 <= n -> (forall a, modest n m (K (inl a))) ->
  (forall q v r ps a b ks k, cheap n D ks -> fit D a -> fit D b -> orderly n D q v r (ps ++ [(a, b)]) k ->
     modest n (m + (q + v * show_work D)) (K (inr (a, b, ks, k)))) ->
  forall q v r ps b1 l1 ks, orderly n D q v r ps p -> cheap n D ks -> modest n (m + (q + v * show_work D)) (andthen (p_play b1 l1 ks p) K).
Proof.
  intros N K0 K1. induction p as [a|s k IH|a b k IH|i o k IH]; intros q v r ps b1 l1 ks F C.
  - cbn [p_play andthen]. apply (modest_mono n _ m); [lia|apply K0].
  - cbn [orderly] in F. destruct q as [|q]; [destruct F|]. replace (m + (S q + v * show_work D)) with (S (m + (q + v * show_work D))) by lia.
    cbn. split; [apply F|]. intros x. apply (IH x q v r ps); [apply F|exact C].
  - cbn [orderly] in F. destruct r as [|r]; [destruct F|]. destruct F as (Fa & Fb & F).
    assert (LAST : modest n (m + (q + v * show_work D)) (K (inr (a, b, ks, k)))) by (eapply K1; eassumption).
    cbn [p_play]. destruct b1 as [|b0 b1]; [exact LAST|]. destruct l1 as [|e l1]; [exact LAST|].
    eapply IH; [exact F|]. apply cheap_more; [exact C|]. intros o. apply cheap_known; [exact N|apply fit_side; assumption].
  - cbn [orderly] in F. destruct v as [|v]; [destruct F|]. cbn [p_play]. destruct (nth_error ks i) as [g|] eqn:Ng.
    + apply modest_nested. replace (m + (q + S v * show_work D)) with (show_work D + (m + (q + v * show_work D))) by lia.
      apply modest_andthen; [apply C, (nth_error_In _ _ Ng)|]. intros x. apply (IH x q v r ps); [apply F|exact C].
    + cbn [andthen]. apply (modest_mono n _ m); [lia|apply K0].
Qed.
Lemma match_modest n D p : 162 <= n -> forall q v r ps bs es ks, orderly n D q v r ps p -> cheap n D ks -> modest n (q + v * show_work D) (p_match bs es ks p).
Proof. intros N q v r ps bs es ks F C. apply (play_then n D p_outcome 0 p N) with (r := r) (ps := ps); [intros; exact I|intros; exact I|exact F|exact C]. Qed.
Lemma play_facts H n D p : 162 <= n -> forall q v r ps bs es ks a b ks' k, orderly n D q v r ps p -> cheap n D ks -> length ks = length ps ->
  exec H (p_play bs es ks p) = inr (a, b, ks', k) ->
  fit D a /\ fit D b /\ cheap n D ks' /\ exists q' v' r' ps', orderly n D q' v' r' (ps' ++ [(a, b)]) k /\ length ks' = length ps'.
Proof.
  intros N. induction p as [x|s k IH|a b k IH|i o k IH]; intros q v r ps bs es ks a' b' ks' k' F C L X; cbn [orderly p_play exec] in *; [discriminate| | |].
  - destruct q as [|q]; [destruct F|]. exact (IH _ q v r ps bs es ks a' b' ks' k' (proj2 F _) C L X).
  - destruct r as [|r]; [destruct F|]. destruct F as (Fa & Fb & F).
    assert (LAST : inr (a, b, ks, k) = inr (a', b', ks', k') :> bool + open_play -> fit D a' /\ fit D b' /\ cheap n D ks' /\
      exists q' v' r' ps', orderly n D q' v' r' (ps' ++ [(a', b')]) k' /\ length ks' = length ps').
    { intros Q. injection Q as <- <- <- <-. split; [exact Fa|split; [exact Fb|split; [exact C|]]]. exists q, v, r, ps. split; assumption. }
    destruct bs as [|b0 bs]; [apply LAST, X|]. destruct es as [|e es]; [apply LAST, X|].
    eapply IH; [exact F| | |exact X].
    + apply cheap_more; [exact C|]. intros o. apply cheap_known; [exact N|apply fit_side; assumption].
    + rewrite !app_length. cbn. lia.
  - destruct v as [|v]; [destruct F|]. destruct (nth_error ks i) as [g|]; [|discriminate]. rewrite exec_andthen in X.
    exact (IH _ q v r ps bs es ks a' b' ks' k' (proj2 F _) C L X).
Qed.
(** Answers which agree for the openings allowed *)
Definition agreeing (H : Hasher) (D : nat) (ps : list (multi_source * multi_source)) (ks ks' : list answerer) : Prop :=
  length ks = length ps /\ length ks' = length ps /\
  forall i a b g g' o, nth_error ps i = Some (a, b) -> nth_error ks i = Some g -> nth_error ks' i = Some g' -> alike D (names o) a b -> exec H (g o) = exec H (g' o).
Lemma agreeing_more H D ps ks ks' a b g g' : agreeing H D ps ks ks' -> (forall o, alike D (names o) a b -> exec H (g o) = exec H (g' o)) ->
  agreeing H D (ps ++ [(a, b)]) (ks ++ [g]) (ks' ++ [g']).
Proof.
  intros (L & L' & A) G. split; [rewrite !app_length; cbn; lia|split; [rewrite !app_length; cbn; lia|]].
  intros i x y h h' o N Nk Nk'. destruct (Nat.lt_trichotomy i (length ps)) as [Q|[Q|Q]].
  - rewrite nth_error_app1 in N, Nk, Nk' by lia. apply (A i); assumption.
  - rewrite nth_error_app2 in N, Nk, Nk' by lia. replace (i - length ps) with 0 in N by lia. replace (i - length ks) with 0 in Nk by lia.
    replace (i - length ks') with 0 in Nk' by lia. injection N as <- <-. injection Nk as <-. injection Nk' as <-. apply G.
  - exfalso. assert (i < length (ps ++ [(a, b)])) by (apply nth_error_Some; congruence). rewrite app_length in *. cbn in *. lia.
Qed.
Lemma match_same H n D p : forall q v r ps bs es ks ks', orderly n D q v r ps p -> agreeing H D ps ks ks' ->
  exec H (p_match bs es ks p) = exec H (p_match bs es ks' p).
Proof.
  unfold p_match. induction p as [x|s k IH|a b k IH|i o k IH]; intros q v r ps bs es ks ks' F A; cbn [orderly p_play] in *; [reflexivity| | |].
  - destruct q as [|q]; [destruct F|]. cbn. apply (IH _ q v r ps); [apply F|exact A].
  - destruct r as [|r]; [destruct F|]. destruct bs as [|b0 bs]; [reflexivity|]. destruct es as [|e es]; [reflexivity|].
    eapply IH; [apply F|]. apply agreeing_more; [exact A|reflexivity].
  - destruct v as [|v]; [destruct F|]. destruct F as [(a & b & Np & Al) F].
    assert (Li : i < length ps) by (apply nth_error_Some; congruence). destruct A as (L & L' & A).
    destruct (nth_error ks i) as [g|] eqn:Ng; [|apply nth_error_None in Ng; lia].
    destruct (nth_error ks' i) as [g'|] eqn:Ng'; [|apply nth_error_None in Ng'; lia].
    rewrite !exec_andthen, (A i a b g g' o Np Ng Ng' Al), <- !exec_andthen. eapply IH; [apply F|]. split; [exact L|split; [exact L'|exact A]].
Qed.

(** ** Changing the sides one by one *)
Section PlaySides.
Context (n : nat) (U : list (list byte)) (UU : universe n U) (Fs : list (list bytes32)) (Cs : list bytes32) (Es : list N).
Hypothesis short : 162 <= n.
Hypothesis LF : lists_all Fs (fun f => length f = length U).
Hypothesis NF : N.of_nat (length Fs) = (2 ^ (256 * N.of_nat (length U)))%N.
Hypothesis NC : NoDup Cs.
Hypothesis IC : forall c, In c Cs.
Hypothesis LC : N.of_nat (length Cs) = (2 ^ 256)%N.
Hypothesis NE : NoDup Es.
Hypothesis IE : forall e, In e Es <-> (e < 2 ^ 64)%N.
Hypothesis LE : N.of_nat (length Es) = (2 ^ 64)%N.
Context (D q v r : nat) (p : play).
Hypothesis few : orderly n D q v (S r) [] p.
Notation p_until b1 l1 := (p_play b1 l1 [] p).
Definition play_sum (bs : list bool) : N := sum (fun es => sum (fun f => ind (exec (table U f) (p_match bs es [] p))) Fs) (tuples Es (length bs)).
Definition op_fst (t : open_play) : multi_source := fst (fst (fst t)).
Definition op_snd (t : open_play) : multi_source := snd (fst (fst t)).
Definition op_tree (b : bool) (t : open_play) : merkle_tree := base_tree (pick_side b (op_fst t) (op_snd t)).
Definition op_nodes (t : open_play) : list nd := seen_nodes (op_fst t) (op_snd t).
Definition op_strings (b : bool) (t : open_play) (e : N) (f : list bytes32) : list (list byte) := TheoremsBlockGame.strings U (op_tree b t) (op_nodes t) e f.
Definition op_view (b : bool) (t : open_play) : list bytes32 -> list bytes32 -> list bytes32 := seen_view U b (op_fst t) (op_snd t).
Definition op_clean (b : bool) (t : open_play) (f : list bytes32) : bool := TheoremsBlockGame.clean U (op_tree b t) Es f.
Definition p_onward (b2 : list bool) (l2 : list N) (t : open_play) (hs : list bytes32) : prog bool :=
  p_match b2 l2 (snd (fst t) ++ [p_seen (op_fst t) (op_snd t) hs]) (snd t).
Lemma cheap_nil : cheap n D []. Proof. intros g o []. Qed.
Lemma op_fits f b1 l1 t : exec (table U f) (p_until b1 l1) = inr t -> fit D (op_fst t) /\ fit D (op_snd t) /\ cheap n D (snd (fst t)) /\
  exists q' v' r' ps', orderly n D q' v' r' (ps' ++ [(op_fst t, op_snd t)]) (snd t) /\ length (snd (fst t)) = length ps'.
Proof.
  destruct t as [[[a b] ks] k]. intros X. exact (play_facts _ n D p short q v (S r) [] b1 l1 [] a b ks k few cheap_nil eq_refl X).
Qed.
Lemma op_base f b1 l1 b t : exec (table U f) (p_until b1 l1) = inr t ->
  valid_source (pick_side b (op_fst t) (op_snd t)) /\ ms_static_entropy (pick_side b (op_fst t) (op_snd t)) = None /\
  try_commit (pick_side b (op_fst t) (op_snd t)) (Some 0%N) = Ret (Ok (op_tree b t)) /\ mt_depth (op_tree b t) <= D.
Proof. intros X. destruct (op_fits f b1 l1 t X) as (F1 & F2 & _). apply fit_base, fit_side; assumption. Qed.
Lemma op_real f b1 l1 b t e : exec (table U f) (p_until b1 l1) = inr t ->
  op_view b t f (map (table U f) (op_strings b t e f)) = map (hash_at U (op_tree b t) f e) (op_nodes t).
Proof.
  intros X. pose proof (op_base f b1 l1 b t X) as F. unfold op_view, seen_view, op_strings, op_nodes, op_tree in *.
  eapply (view_real (T := list bytes32)); try eassumption; [apply F|apply seen_inside].
Qed.
Lemma op_onward f b1 l1 b t e b2 l2 : exec (table U f) (p_until b1 l1) = inr t ->
  exec (table U f) (p_match b2 l2 (snd (fst t) ++ [p_answer (with_entropy (op_tree b t) e)]) (snd t)) =
  exec (table U f) (p_onward b2 l2 t (map (hash_at U (op_tree b t) f e) (op_nodes t))).
Proof.
  intros X. destruct (op_fits f b1 l1 t X) as (_ & _ & _ & q' & v' & r' & ps' & F & L). unfold p_onward. eapply match_same; [exact F|].
  apply agreeing_more.
  - split; [exact L|split; [exact L|]]. intros i a a' g g' o _ N N' _. congruence.
  - intros o A. symmetry. unfold op_nodes, op_tree. apply (seen_exec D). exact A.
Qed.
Lemma play_sum_at b1 b b2 : play_sum (b1 ++ b :: b2) =
  sum (fun l1 => sum (fun l2 => sum (fun e => sum (fun f =>
    answer U (p_show (p_until b1 l1) (p_onward b2 l2)) (lv U (p_until b1 l1) (op_view b))
      (map (table U f) (lX U (p_until b1 l1) (op_strings b) e f)) f f) Fs) Es)
    (tuples Es (length b2))) (tuples Es (length b1)).
Proof.
  unfold play_sum. rewrite app_length. cbn [length]. rewrite tuples_sum_app. apply sum_ext. intros l1 I1. apply tuples_among in I1 as [L1 _].
  rewrite tuples_next. apply sum_ext. intros l2 _. apply sum_ext. intros e _. apply sum_ext. intros f _. unfold answer. f_equal.
  unfold p_match at 1, p_show, lv, lX. rewrite !exec_andthen, (play_app _ (b :: b2) (e :: l2) p b1 l1 [] L1).
  destruct (exec (table U f) (p_until b1 l1)) as [a|t] eqn:X; [reflexivity|]. rewrite (op_real f b1 l1 b t e X), <- (op_onward f b1 l1 b t e b2 l2 X).
  destruct t as [[[a a'] ks] k]. cbn [p_play]. unfold p_match. rewrite exec_andthen. reflexivity.
Qed.
Definition play_cost : nat := q + v * show_work D.
Definition play_all : nat := length Es * tree_work D + play_cost.
Lemma play_dirty b1 l1 b :
  (N.of_nat (length (filter (fun f => negb (lcl U (p_until b1 l1) (op_clean b) f)) Fs)) * 2 ^ 257 <= N.of_nat play_all * N.of_nat play_all * N.of_nat (length Fs))%N.
Proof.
  rewrite NF.
  set (K := fun x : bool + open_play => match x with inl _ => Done [] | inr t => p_each (op_tree b t) Es end).
  eapply N.le_trans; [apply (c92_birthday n U _ (andthen (p_until b1 l1) K) play_all UU)|].
  - apply (play_then n D) with (r := S r) (ps := []); [exact short|intros; exact I| |exact few|exact cheap_nil].
    intros q0 v0 r0 ps a a' ks k _ F1 F2 _. apply (modest_mono n _ (length Es * tree_work D)); [lia|]. unfold K.
    apply (modest_mono n _ (length Es * (2 * 2 ^ mt_depth (op_tree b (a, a', ks, k)) + 2))); [|apply p_each_modest, short].
    apply Nat.mul_le_mono_l, work_mono. apply (fit_base D), fit_side; assumption.
  - apply NoDup_filter, LF.
  - intros f J. apply filter_In in J as [J B]. split; [apply LF, J|]. unfold lcl in B.
    destruct (exec (table U f) (p_until b1 l1)) as [|t] eqn:E; [discriminate|]. unfold op_clean, TheoremsBlockGame.clean in B.
    destruct (@coll_dec (table U f) (asked_all U (op_tree b t) Es f)) as [Co|]; [|discriminate].
    eapply collision_incl; [|exact Co]. rewrite asked_andthen, E. apply incl_appr, incl_refl.
  - apply N.mul_le_mono_r, N.mul_le_mono_l. lia.
Qed.
Lemma play_value b1 l1 b2 l2 b :
  near (sum (fun e => sum (fun f => answer U (p_show (p_until b1 l1) (p_onward b2 l2)) (lv U (p_until b1 l1) (op_view b))
      (map (table U f) (lX U (p_until b1 l1) (op_strings b) e f)) f f) Fs) Es * N.of_nat (length (tuples Cs (2 ^ D))))
    (sum (fun f => sum (fun c => answer U (p_show (p_until b1 l1) (p_onward b2 l2)) (lv U (p_until b1 l1) (op_view b)) c f f) (tuples Cs (2 ^ D))) Fs * N.of_nat (length Es))
    (2 * (N.of_nat play_cost * N.of_nat (length Fs) + N.of_nat (length (filter (fun f => negb (lcl U (p_until b1 l1) (op_clean b) f)) Fs)) * N.of_nat (length Es)) * N.of_nat (length (tuples Cs (2 ^ D)))).
Proof.
  apply (show_value n U UU Fs Cs Es LF NC IC NE (p_until b1 l1) (2 ^ D) (op_strings b) (op_view b) (p_onward b2 l2) play_cost (op_clean b)).
  - intros x. unfold p_show. apply (play_then n D _ 0) with (r := S r) (ps := []); [exact short|intros; exact I| |exact few|exact cheap_nil].
    intros q0 v0 r0 ps a a' ks k C F1 F2 F. destruct x as [hs|]; [|exact I]. unfold p_onward. eapply (match_modest n D); [exact short|exact F|].
    apply cheap_more; [exact C|]. intros o. apply seen_modest; [exact short|]. apply (fit_base D _ F1).
  - intros f t e X. pose proof (op_base f b1 l1 b t X) as F. destruct (op_fits f b1 l1 t X) as (F1 & _).
    assert (SI : incl (op_strings b t e f) U /\ length (op_strings b t e f) = length (blind_nodes (op_tree b t) (op_nodes t))).
    { eapply strings_in; try eassumption. apply F. }
    destruct SI as [I1 I2]. split; [exact I1|]. rewrite I2. unfold blind_nodes.
    pose proof (fewer (free_node (op_tree b t)) (op_nodes t)) as L1.
    pose proof (seen_length D (op_fst t) (op_snd t) (proj2 (proj2 (proj2 (fit_base D _ F1))))) as L2. unfold op_nodes in *. lia.
  - intros f t e X C Ie. pose proof (op_base f b1 l1 b t X) as F. eapply strings_NoDup; try eassumption; try apply F; [apply seen_NoDup|apply seen_inside].
  - intros f t e c X C Ie. pose proof (op_base f b1 l1 b t X) as F. eapply strings_stay; try eassumption; try apply F; [apply seen_inside|apply seen_apart].
  - intros f t e c d X C Ie. pose proof (op_base f b1 l1 b t X) as F. eapply view_stays; try eassumption; try apply F; [apply seen_inside|apply seen_apart].
  - intros f t e cs r0 X L. unfold op_view, seen_view, TheoremsBlockGame.view. apply fills_more. rewrite L. apply map_length.
  - intros f t e e' x X C Ie Ie' J J'. pose proof (op_base f b1 l1 b t X) as F. unfold op_strings, op_clean in *.
    eapply (strings_apart n U D (pick_side b (op_fst t) (op_snd t)) (op_tree b t) (op_nodes t) (fun x => x) Es Fs Cs); try eassumption; try apply F. apply seen_inside.
Qed.
Lemma play_ideal_same b1 l1 b2 l2 b b' :
  sum (fun f => sum (fun c => answer U (p_show (p_until b1 l1) (p_onward b2 l2)) (lv U (p_until b1 l1) (op_view b)) c f f) (tuples Cs (2 ^ D))) Fs =
  sum (fun f => sum (fun c => answer U (p_show (p_until b1 l1) (p_onward b2 l2)) (lv U (p_until b1 l1) (op_view b')) c f f) (tuples Cs (2 ^ D))) Fs.
Proof.
  apply sum_ext. intros f _. apply sum_ext. intros c _. unfold answer. do 3 f_equal. unfold lv.
  destruct (exec (table U f) (p_until b1 l1)) as [a|t] eqn:X; [reflexivity|]. f_equal. unfold op_view.
  pose proof (seen_view_same U (op_fst t) (op_snd t) f c) as S. destruct b, b'; congruence.
Qed.
Definition play_error : N := (2 ^ 257 * N.of_nat play_cost + N.of_nat (length Es) * (N.of_nat play_all * N.of_nat play_all))%N.
Lemma one_play b1 b b' b2 : length b1 + length b2 = r ->
  (play_sum (b1 ++ b :: b2) * 2 ^ 257 <= play_sum (b1 ++ b' :: b2) * 2 ^ 257 +
    4 * play_error * N.of_nat (length Es) ^ N.of_nat r * N.of_nat (length Fs))%N.
Proof.
  intros R. rewrite !play_sum_at. rewrite <- R.
  rewrite Nat2N.inj_add, N.pow_add_r, <- !tuples_length.
  replace (4 * play_error * (N.of_nat (length (tuples Es (length b1))) * N.of_nat (length (tuples Es (length b2)))) * N.of_nat (length Fs))%N
    with (N.of_nat (length (tuples Es (length b1))) * (N.of_nat (length (tuples Es (length b2))) * (4 * play_error * N.of_nat (length Fs))))%N
    by (set (a := length (tuples Es (length b1))); set (d := length (tuples Es (length b2))); lia).
  rewrite <- !sum_mul, <- sum_same, <- sum_add. apply sum_le. intros l1 I1. rewrite <- !sum_mul, <- sum_same, <- sum_add. apply sum_le. intros l2 I2.
  destruct (play_value b1 l1 b2 l2 b) as [X _]. destruct (play_value b1 l1 b2 l2 b') as [_ Y]. rewrite (play_ideal_same b1 l1 b2 l2 b b') in X.
  pose proof (play_dirty b1 l1 b) as D1. pose proof (play_dirty b1 l1 b') as D2.
  assert (LP : (0 < N.of_nat (length (tuples Cs (2 ^ D))))%N) by (rewrite tuples_length, LC; apply N.neq_0_lt_0, N.pow_nonzero; discriminate).
  unfold play_error. set (qq := N.of_nat play_cost) in *. set (qa := (N.of_nat play_all * N.of_nat play_all)%N) in *.
  set (d1 := N.of_nat (length (filter (fun f => negb (lcl U (p_until b1 l1) (op_clean b) f)) Fs))) in *.
  set (d2 := N.of_nat (length (filter (fun f => negb (lcl U (p_until b1 l1) (op_clean b') f)) Fs))) in *.
  set (k := N.of_nat (length (tuples Cs (2 ^ D)))) in *.
  apply (N.mul_le_mono_pos_r _ _ k); [exact LP|].
  set (a := sum _ Es) in X |- *.
  match type of Y with (_ <= ?s * k + _)%N => set (d := s) in * end.
  match type of X with (_ <= ?s * _ + _)%N => set (m := s) in * end. set (F := N.of_nat (length Fs)) in *. set (E := N.of_nat (length Es)) in *.
  set (Z := (2 ^ 257)%N) in *. clearbody a d m k F E Z d1 d2 qq qa. clear - X Y D1 D2.
  assert (A1 : (a * k <= d * k + 2 * (qq * F + d1 * E) * k + 2 * (qq * F + d2 * E) * k)%N) by lia.
  apply (N.mul_le_mono_r _ _ Z) in A1. apply (N.mul_le_mono_r _ _ (E * k)) in D1. apply (N.mul_le_mono_r _ _ (E * k)) in D2. lia.
Qed.
Lemma all_plays b b' : forall j i, i + j = S r ->
  (play_sum (repeat b' i ++ repeat b j) * 2 ^ 257 <= play_sum (repeat b' (S r)) * 2 ^ 257 +
    N.of_nat j * (4 * play_error * N.of_nat (length Es) ^ N.of_nat r * N.of_nat (length Fs)))%N.
Proof.
  induction j as [|j IH]; intros i E.
  - change (repeat b 0) with (@nil bool). rewrite app_nil_r. replace i with (S r) by lia. lia.
  - specialize (IH (S i) ltac:(lia)). change (repeat b (S j)) with (b :: repeat b j).
    pose proof (one_play (repeat b' i) b b' (repeat b j) ltac:(rewrite !repeat_length; lia)) as X.
    replace (repeat b' i ++ b' :: repeat b j) with (repeat b' (S i) ++ repeat b j) in X
      by (change (b' :: repeat b j) with ([b'] ++ repeat b j); rewrite app_assoc; f_equal; apply (repeat_cons i b')).
    rewrite Nat2N.inj_succ, N.mul_succ_l. lia.
Qed.
End PlaySides.

(** ** Plays and their programs *)
Definition held (first : bool) (D : nat) (ps : list (multi_source * multi_source)) (ts : list merkle_tree) : Prop :=
  Forall2 (fun x t => fit D (fst x) /\ fit D (snd x) /\ exists e, t = with_entropy (base_tree (pick_side first (fst x) (snd x))) e) ps ts.
Lemma held_nth first D ps ts i a b : held first D ps ts -> nth_error ps i = Some (a, b) ->
  exists e, nth_error ts i = Some (with_entropy (base_tree (pick_side first a b)) e).
Proof.
  intros F. revert i. induction F as [|x t ps ts (_ & _ & e & E) F IH]; intros [|i] N; try discriminate; [|apply IH, N].
  injection N as N. subst x. cbn [fst snd] in E. exists e. cbn. congruence.
Qed.
Lemma answers_nth (ts : list merkle_tree) i : nth_error (map p_answer ts) i = option_map p_answer (nth_error ts i).
Proof. revert i. induction ts as [|t ts IH]; intros [|i]; try reflexivity. apply IH. Qed.
Lemma played_iff n D U f p first : forall q v r ps ts es a, orderly n D q v r ps p -> held first D ps ts -> length es = r ->
  played (table U f) first es ts p a <-> exec (table U f) (p_play (repeat first r) es (map p_answer ts) p) = inl a.
Proof.
  induction p as [a0|s k IH|x y k IH|i o k IH]; intros q v r ps ts es a F Hd L; cbn [p_play exec] in *.
  - split; [inversion 1; reflexivity|intros X; injection X as <-; constructor].
  - cbn [orderly] in F. destruct q as [|q]; [destruct F|]. rewrite <- (IH _ q v r ps ts es a (proj2 F _) Hd L). split; [inversion 1; assumption|apply pl_hash].
  - cbn [orderly] in F. destruct r as [|r]; [destruct F|]. destruct F as (Fx & Fy & F). destruct es as [|e es]; [discriminate|]. injection L as L.
    cbn [repeat]. set (t := with_entropy (base_tree (pick_side first x y)) e).
    assert (Hd' : held first D (ps ++ [(x, y)]) (ts ++ [t])).
    { apply Forall2_app; [exact Hd|]. constructor; [|constructor]. cbn [fst snd]. split; [exact Fx|split; [exact Fy|]]. exists e. reflexivity. }
    pose proof (IH q v r (ps ++ [(x, y)]) (ts ++ [t]) es a F Hd' L) as IHk. rewrite map_app in IHk. cbn [map] in IHk. rewrite <- IHk.
    destruct (fit_base D _ (fit_side D x y first Fx Fy)) as (V & S0 & M0 & _). pose proof (commit_entropy _ 0 e _ S0 M0) as M. fold t in M. unfold pick_side in M. split.
    + inversion 1; subst. match goal with X : try_commit _ (Some e) = _ |- _ => rewrite M in X; injection X as <- end. assumption.
    + apply (pl_pair (table U f) first e es ts x y k t a M).
  - cbn [orderly] in F. destruct v as [|v]; [destruct F|]. destruct F as [(x & y & Np & Al) F].
    destruct (held_nth first D ps ts i x y Hd Np) as [e Nt]. rewrite answers_nth, Nt. cbn [option_map]. rewrite exec_andthen.
    rewrite <- (IH _ q v r ps ts es a (F _) Hd L).
    pose proof (fine_answers (table U f) D (names o) _ _ e (alike_fine D (names o) x y first Al) o (fun _ I => I)) as G. split.
    + inversion 1; subst. match goal with X : nth_error ts i = Some _ |- _ => rewrite Nt in X; injection X as <- end.
      match goal with X : gives _ _ o _ |- _ => rewrite (gives_one _ _ _ _ _ G X) end. assumption.
    + intros X. eapply pl_open; [exact Nt|exact G|exact X].
Qed.
Lemma play_ends H n D p : forall q v r ps ks first es, orderly n D q v r ps p -> length es = r -> exists a, exec H (p_play (repeat first r) es ks p) = inl a.
Proof.
  induction p as [a|s k IH|x y k IH|i o k IH]; intros q v r ps ks first es F L; cbn [orderly p_play exec] in *; [exists a; reflexivity| | |].
  - destruct q as [|q]; [destruct F|]. apply (IH _ q v r ps ks first es (proj2 F _) L).
  - destruct r as [|r]; [destruct F|]. destruct es as [|e es]; [discriminate|]. cbn [repeat]. injection L as L. eapply IH; [apply F|exact L].
  - destruct v as [|v]; [destruct F|]. destruct (nth_error ks i) as [g|]; [|exists false; reflexivity]. rewrite exec_andthen. eapply IH; [apply F|exact L].
Qed.
Lemma outcome_true H x : exec H (p_outcome x) = true <-> x = inl true.
Proof. destruct x as [[]|]; cbn; split; intros X; try discriminate X; try reflexivity. Qed.

Section PlayCounts.
Context (n D : nat) (U : list (list byte)) (Fs : list (list bytes32)) (LF : lists_all Fs (fun f => length f = length U)) (Es : list N).
Hypothesis NE : NoDup Es.
Hypothesis IE : forall e, In e Es <-> (e < 2 ^ 64)%N.
Context (q v r : nat) (p : play).
Hypothesis F : orderly n D q v r [] p.
Lemma guesses_play_iff first ef : guesses_play U r first p ef <->
  In ef (list_prod (tuples Es r) Fs) /\ exec (table U (snd ef)) (p_match (repeat first r) (fst ef) [] p) = true.
Proof.
  destruct ef as [es f]. cbn [fst snd]. unfold guesses_play, p_match. rewrite in_prod_iff, tuples_among, (proj2 LF f), exec_andthen, outcome_true.
  assert (FE : Forall (fun e => (e < 2 ^ 64)%N) es <-> Forall (fun e => In e Es) es) by (split; apply Forall_impl; intros e; apply IE).
  assert (HN : held first D [] []) by constructor.
  split.
  - intros (L & Le & B & X). apply (played_iff n D U f p first q v r [] [] es true F HN Le) in X. tauto.
  - intros (((Le & B) & L) & X). apply FE in B. split; [exact L|split; [exact Le|split; [exact B|]]].
    apply (played_iff n D U f p first q v r [] [] es true F HN Le). exact X.
Qed.
Lemma play_count first k : counts (guesses_play U r first p) k -> k = play_sum U Fs Es p (repeat first r).
Proof.
  intros C. unfold play_sum. rewrite repeat_length.
  rewrite (counts_ind _ _ (list_prod (tuples Es r) Fs) k (NoDup_prod _ _ (tuples_NoDup Es _ NE) (proj1 LF)) (guesses_play_iff first) C).
  apply sum_prod.
Qed.
Lemma play_count_exist first : counts (guesses_play U r first p) (play_sum U Fs Es p (repeat first r)).
Proof.
  unfold play_sum. rewrite repeat_length.
  rewrite <- (sum_prod (fun x => ind (exec (table U (snd x)) (p_match (repeat first r) (fst x) [] p)))).
  apply counts_exist; [apply NoDup_prod; [apply tuples_NoDup, NE|apply LF]|]. apply guesses_play_iff.
Qed.
End PlayCounts.

Lemma c118_choice : forall n U q v r D (p : play) first k1 k2 (strings : universe n U) (short : 162 <= n) (allowed : orderly n D q v r [] p)
  (yes1 : counts (guesses_play U r first p) k1) (yes2 : counts (guesses_play U r (negb first) p) k2),
  let asked := (N.of_nat q + N.of_nat v * (3 * 2 ^ N.of_nat D + 2))%N in
  let all := (asked + 2 ^ 64 * (2 * 2 ^ N.of_nat D + 2))%N in
  (k1 * 2 ^ 191 <= k2 * 2 ^ 191 + N.of_nat r * (2 ^ 193 * asked + all ^ 2) * (2 ^ 64) ^ (N.of_nat r - 1) * 2 ^ (256 * N.of_nat (length U)))%N.
Proof.
  intros n U q v r D p first k1 k2 UU N F R1 R2. cbv zeta.
  destruct (below (2 ^ 64)) as (Es & NE & IE & LE). destruct (c86_all (length U)) as (Fs & LF & NF). destruct all_ids as (Cs & NC & IC & LC).
  rewrite (play_count n D U Fs LF Es NE IE q v r p F first k1 R1), (play_count n D U Fs LF Es NE IE q v r p F (negb first) k2 R2).
  destruct r as [|r]; [cbn [repeat]; apply N.le_add_r|].
  pose proof (all_plays n U UU Fs Cs Es N LF NF NC IC LC NE IE LE D q v r p F first (negb first) (S r) 0 eq_refl) as X.
  change (repeat (negb first) 0 ++ repeat first (S r)) with (repeat first (S r)) in X. unfold play_error, play_all, play_cost in X.
  replace (N.of_nat (length Es * tree_work D + (q + v * show_work D))) with (N.of_nat q + N.of_nat v * (3 * 2 ^ N.of_nat D + 2) + 2 ^ 64 * (2 * 2 ^ N.of_nat D + 2))%N in X.
  2: { unfold tree_work, show_work. rewrite <- LE, !Nat2N.inj_add, !Nat2N.inj_mul, !Nat2N.inj_add, !Nat2N.inj_mul, Nat2N.inj_pow. change (N.of_nat 2) with 2%N. change (N.of_nat 3) with 3%N. ring. }
  replace (N.of_nat (q + v * show_work D)) with (N.of_nat q + N.of_nat v * (3 * 2 ^ N.of_nat D + 2))%N in X.
  2: { unfold show_work. rewrite !Nat2N.inj_add, !Nat2N.inj_mul, !Nat2N.inj_add, Nat2N.inj_mul, Nat2N.inj_pow. change (N.of_nat 2) with 2%N. change (N.of_nat 3) with 3%N. ring. }
  rewrite LE, NF in X. replace (N.of_nat (S r) - 1)%N with (N.of_nat r) by lia. rewrite N.pow_2_r.
  set (as_ := (N.of_nat q + N.of_nat v * (3 * 2 ^ N.of_nat D + 2))%N) in *. set (al := (as_ + _)%N) in *. set (T := (2 ^ (256 * N.of_nat (length U)))%N) in *.
  set (y := ((2 ^ 64) ^ N.of_nat r)%N) in *. set (s1 := play_sum _ _ _ _ _) in *. set (s2 := play_sum _ _ _ _ (repeat (negb first) _)) in *. set (rr := N.of_nat (S r)) in *.
  clearbody as_ al T y s1 s2 rr. clear - X.
  change (2 ^ 257)%N with (2 ^ 64 * (4 * 2 ^ 191))%N in X. change (2 ^ 193)%N with (4 * 2 ^ 191)%N. assert (P : (0 < 4 * 2 ^ 64)%N) by reflexivity.
  apply (N.mul_le_mono_pos_r _ _ _ P). generalize dependent (2 ^ 191)%N. generalize dependent (2 ^ 64)%N. intros. lia.
Qed.

Lemma c118_meaning : forall n U q v r D (p : play) first (strings : universe n U) (allowed : orderly n D q v r [] p),
  (forall f es (len_f : length f = length U) (len_es : length es = r),
     exists a, played (table U f) first es [] p a /\ forall b, played (table U f) first es [] p b -> b = a) /\
  (exists k, counts (guesses_play U r first p) k) /\
  counts (guesses_play U r first (PlayEnd true)) ((2 ^ 64) ^ N.of_nat r * 2 ^ (256 * N.of_nat (length U))).
Proof.
  intros n U q v r D p first UU F. destruct (below (2 ^ 64)) as (Es & NE & IE & LE). destruct (c86_all (length U)) as (Fs & LF & NF).
  assert (HN : held first D [] []) by constructor.
  split; [|split].
  - intros f es _ L. destruct (play_ends (table U f) n D p q v r [] [] first es F L) as [a X]. exists a.
    split; [apply (played_iff n D U f p first q v r [] [] es a F HN L), X|]. intros b Y.
    apply (played_iff n D U f p first q v r [] [] es b F HN L) in Y. assert (Z : inl b = inl a :> bool + open_play) by exact (eq_trans (eq_sym Y) X). congruence.
  - eexists. apply (play_count_exist n D U Fs LF Es NE IE q v r p F first).
  - pose proof (play_count_exist n D U Fs LF Es NE IE 0 0 r (PlayEnd true) I first) as C. unfold play_sum, p_match in C. cbn [p_play andthen p_outcome exec ind] in C.
    rewrite sum_same, sum_same, tuples_length, repeat_length, LE, NF, N.mul_1_r in C. exact C.
Qed.

Lemma c118_numbers : forall n U q v r (p : play) first k1 k2 all (strings : universe n U) (short : 162 <= n) (allowed : orderly n 16 q v r [] p)
  (work : (N.of_nat q <= 2 ^ 40)%N) (openings : (N.of_nat v <= 2 ^ 20)%N) (many : (N.of_nat r <= 2 ^ 10)%N)
  (yes1 : counts (guesses_play U r first p) k1) (yes2 : counts (guesses_play U r (negb first) p) k2)
  (total : counts (guesses_play U r first (PlayEnd true)) all),
  (k1 * 2 ^ 11 <= k2 * 2 ^ 11 + all)%N.
Proof.
  intros n U q v r p first k1 k2 all UU N F Q O M R1 R2 T.
  pose proof (c118_choice n U q v r 16 p first k1 k2 UU N F R1 R2) as X. cbv zeta in X.
  destruct (below (2 ^ 64)) as (Es & NE & IE & LE). destruct (c86_all (length U)) as (Fs & LF & NF).
  rewrite (play_count n 16 U Fs LF Es NE IE 0 0 r (PlayEnd true) I first all T). unfold play_sum, p_match. cbn [p_play andthen p_outcome exec ind].
  rewrite sum_same, sum_same, tuples_length, repeat_length, LE, NF. clear T R1 R2 F N.
  change (2 * 2 ^ N.of_nat 16 + 2)%N with (2 ^ 17 + 2)%N in X. change (3 * 2 ^ N.of_nat 16 + 2)%N with (3 * 2 ^ 16 + 2)%N in X.
  set (rr := N.of_nat r) in *. set (f := (2 ^ (256 * N.of_nat (length U)))%N) in *.
  destruct (N.eq_dec rr 0) as [Z|Z]; [rewrite Z in *; lia|].
  replace ((2 ^ 64) ^ rr)%N with (2 ^ 64 * (2 ^ 64) ^ (rr - 1))%N by (rewrite <- N.pow_succ_r'; f_equal; lia).
  set (y := ((2 ^ 64) ^ (rr - 1))%N) in *. set (a := (N.of_nat q + N.of_nat v * (3 * 2 ^ 16 + 2))%N) in *.
  assert (B : (rr * (2 ^ 193 * a + (a + 2 ^ 64 * (2 ^ 17 + 2)) ^ 2) * 2 ^ 11 <= 2 ^ 191 * 2 ^ 64)%N).
  { assert (B1 : (a <= 2 ^ 40 + 2 ^ 20 * (3 * 2 ^ 16 + 2))%N) by (unfold a; lia).
    transitivity (2 ^ 10 * (2 ^ 193 * (2 ^ 40 + 2 ^ 20 * (3 * 2 ^ 16 + 2)) + ((2 ^ 40 + 2 ^ 20 * (3 * 2 ^ 16 + 2)) + 2 ^ 64 * (2 ^ 17 + 2)) ^ 2) * 2 ^ 11)%N; [|vm_compute; discriminate].
    apply N.mul_le_mono_r, N.mul_le_mono; [exact M|]. apply N.add_le_mono; [apply N.mul_le_mono_l, B1|]. apply N.pow_le_mono_l, N.add_le_mono_r, B1. }
  set (e := (rr * (2 ^ 193 * a + (a + 2 ^ 64 * (2 ^ 17 + 2)) ^ 2))%N) in *. clearbody y f e. apply (N.mul_le_mono_r _ _ (2 ^ 11)) in X. rewrite N.mul_add_distr_r in X.
  apply (N.mul_le_mono_r _ _ (y * f)) in B. assert (P : (0 < 2 ^ 191)%N) by reflexivity. apply (N.mul_le_mono_pos_r _ _ _ P).
  clear - X B. generalize dependent (2 ^ 191)%N. generalize dependent (2 ^ 64)%N. generalize dependent (2 ^ 11)%N. intros. lia.
Qed.

(** ** What is asked for together *)
Definition screened_at (t1 t2 : merkle_tree) (k : nat) (a : N) : Prop :=
  (exists i1 i2, (within k a i1 /\ slot_of t1 i1 = None) /\ (within k a i2 /\ slot_of t2 i2 = None)) \/
  (forall i, within k a i -> slot_of t1 i = slot_of t2 i).
Lemma within_next k a i : within (S k) a i <-> within k (2 * a) i \/ within k (2 * a + 1) i.
Proof. rewrite !within_range, Nat2N.inj_succ, N.pow_succ_r'. set (P := (2 ^ N.of_nat k)%N). assert (0 < P)%N by apply pow_pos. clearbody P. nia. Qed.
Lemma screened_next t1 t2 k a : screened_at t1 t2 k (2 * a) -> screened_at t1 t2 k (2 * a + 1) -> screened_at t1 t2 (S k) a.
Proof.
  intros [(i1 & i2 & [B1 N1] & [B2 N2])|E]; [intros _; left; exists i1, i2; rewrite !within_next; tauto|].
  intros [(i1 & i2 & [B1 N1] & [B2 N2])|E']; [left; exists i1, i2; rewrite !within_next; tauto|].
  right. intros i B. apply within_next in B as [B|B]; auto.
Qed.
Lemma screened_above t1 t2 ids : screened_block t1 t2 ids ->
  (forall i p m, slot_of t1 i = Some (p, m) -> In p ids -> slot_of t2 i = Some (p, m)) ->
  forall k a, k <= mt_depth t1 -> (a < 2 ^ N.of_nat (mt_depth t1 - k))%N -> shows t1 ids k a \/ concealed_top t1 ids k a -> screened_at t1 t2 k a.
Proof.
  intros SC AG. induction k as [|k IH]; intros a L B [S|C]; try (apply SC, C).
  - destruct S as (i & p & m & W & E & I). right. intros j Wj. apply within_range in W, Wj. change (2 ^ N.of_nat 0)%N with 1%N in *.
    replace j with i by lia. rewrite E. symmetry. apply (AG i p m E I).
  - assert (Bk : (2 * a + 1 < 2 ^ N.of_nat (mt_depth t1 - k))%N).
    { replace (mt_depth t1 - k) with (Datatypes.S (mt_depth t1 - Datatypes.S k)) by lia. rewrite Nat2N.inj_succ, N.pow_succ_r'. lia. }
    assert (X : forall x, (x < 2 ^ N.of_nat (mt_depth t1 - k))%N -> (x / 2 = a)%N -> screened_at t1 t2 k x).
    { intros x Bx Q. apply IH; [lia|exact Bx|].
      destruct (vis (tcells t1) (mem ids) k (x * 2 ^ N.of_nat k)) eqn:V; [left; apply shows_vis, V|right].
      split; [lia|split; [exact Bx|split; [intros Y; apply shows_vis in Y; congruence|right; rewrite Q; exact S]]]. }
    apply screened_next; apply X; try lia; [rewrite N.mul_comm; apply N.div_mul; discriminate|].
    symmetry. apply (N.div_unique _ 2 a 1); lia.
Qed.
Lemma alike_slots D ids v w t1 t2 : alike D ids v w -> try_commit v (Some 0%N) = Ret (Ok t1) -> try_commit w (Some 0%N) = Ret (Ok t2) ->
  forall i p m, slot_of t1 i = Some (p, m) -> In p ids -> slot_of t2 i = Some (p, m).
Proof.
  intros (V1 & V2 & S1 & S2 & QM & SH & u1 & u2 & E1 & E2 & QD & QC & L & SC) F1 F2 i p m E I.
  rewrite E1 in F1. injection F1 as <-. rewrite E2 in F2. injection F2 as <-.
  pose proof (shown_agree _ _ _ _ _ _ ids V1 V2 E1 E2 QD QC SH i) as A. change (tcells u1 i) with (slot_of u1 i) in A. change (tcells u2 i) with (slot_of u2 i) in A.
  rewrite E, (proj2 (mem_In ids p) I) in A. destruct (slot_of u2 i) as [[p' m']|]; [|discriminate]. destruct (mem ids p'); congruence.
Qed.
Lemma c118_together : forall D ids ids' a b, alike D (ids ++ ids') a b <-> alike D ids a b /\ alike D ids' a b.
Proof.
  assert (Less : forall D ids ids' a b, incl ids' ids -> alike D ids a b -> alike D ids' a b).
  { intros D ids ids' a b In' A. pose proof (alike_slots D ids a b) as SL.
    destruct A as (V1 & V2 & S1 & S2 & QM & SH & t1 & t2 & E1 & E2 & QD & QC & L & SC) eqn:EA. specialize (SL t1 t2 A E1 E2).
    split; [exact V1|split; [exact V2|split; [exact S1|split; [exact S2|split; [exact QM|split; [intros p I; apply SH, In', I|]]]]]].
    exists t1, t2. split; [exact E1|split; [exact E2|split; [exact QD|split; [exact QC|split; [exact L|]]]]].
    intros k x (Lk & Bx & _ & Up). apply (screened_above t1 t2 ids SC SL k x Lk Bx).
    destruct (vis (tcells t1) (mem ids) k (x * 2 ^ N.of_nat k)) eqn:V; [left; apply shows_vis, V|right].
    split; [exact Lk|split; [exact Bx|split; [intros Y; apply shows_vis in Y; congruence|]]].
    destruct Up as [Up|(i & p & m & W & E & I)]; [left; exact Up|right; exists i, p, m; auto]. }
  intros D ids ids' a b. split.
  - intros A. split; (eapply Less; [|exact A]); [apply incl_appl, incl_refl|apply incl_appr, incl_refl].
  - intros [(V1 & V2 & S1 & S2 & QM & SH & t1 & t2 & E1 & E2 & QD & QC & L & SC) (_ & _ & _ & _ & _ & SH' & u1 & u2 & E1' & E2' & _ & _ & _ & SC')].
    rewrite E1 in E1'. injection E1' as <-. rewrite E2 in E2'. injection E2' as <-.
    split; [exact V1|split; [exact V2|split; [exact S1|split; [exact S2|split; [exact QM|split]]]]]; [intros p I; apply in_app_or in I as [I|I]; auto|].
    exists t1, t2. split; [exact E1|split; [exact E2|split; [exact QD|split; [exact QC|split; [exact L|]]]]].
    intros k x (Lk & Bx & Ns & Up).
    assert (N1 : ~ shows t1 ids k x) by (intros (i & p & m & W & E & I); apply Ns; exists i, p, m; split; [exact W|split; [exact E|apply in_or_app; left; exact I]]).
    assert (N2 : ~ shows t1 ids' k x) by (intros (i & p & m & W & E & I); apply Ns; exists i, p, m; split; [exact W|split; [exact E|apply in_or_app; right; exact I]]).
    destruct Up as [Up|(i & p & m & W & E & I)]; [apply SC; split; [exact Lk|split; [exact Bx|split; [exact N1|left; exact Up]]]|].
    apply in_app_or in I as [I|I]; [apply SC|apply SC']; (split; [exact Lk|split; [exact Bx|split; [assumption|right; exists i, p, m; auto]]]).
Qed.
