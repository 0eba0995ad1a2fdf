(** C102: what proofs and blocks of any number of commitments tell about the messages never revealed. *)
From Verif Require Import Base BaseFacts OrdMap Strict Merkle MpcAtoms MpcTree MpcBlock.
From Verif Require Import SpecHash SpecTree SpecMerkle SpecFull SpecLocal SpecValid SpecFind SpecBlock SpecCommit SpecCount SpecGame SpecHideGame SpecViewGame SpecBlockGame SpecTalk SpecMany.
From Verif Require Import HashFacts TreeFacts MerkleProofs MpcTreeProofs ConcealProofs LocalProofs DerivedProofs CountProofs GameProofs GameHideProofs GameViewProofs HideProofs.
From Verif Require Import TheoremsMpc TheoremsMore TheoremsBlock TheoremsLocal TheoremsHide TheoremsCount TheoremsFind TheoremsGame TheoremsHideGame TheoremsViewGame PathProofs TheoremsBlockGame TheoremsTalk.
From Verif Require Import SpecGame.
Local Open Scope nat_scope.

(** ** Answering from the whole tree *)
Fixpoint returns {A} (P : A -> Prop) (p : prog A) : Prop :=
  match p with Done a => P a | Ask _ k => forall a, returns P (k a) end.
Lemma returns_andthen {A B} (P : A -> Prop) (Q : B -> Prop) p (k : A -> prog B) : returns P p -> (forall a, P a -> returns Q (k a)) -> returns Q (andthen p k).
Proof. intros Y K. induction p as [a|s c IH]; cbn in *; [apply K, Y|]. intros a. apply IH, Y. Qed.
Lemma modest_after {A B} n (P : A -> Prop) (p : prog A) (k : A -> prog B) : forall q r, modest n q p -> returns P p -> (forall a, P a -> modest n r (k a)) ->
  modest n (q + r) (andthen p k).
Proof.
  induction p as [a|s c IH]; intros q r M Y K.
  - apply (modest_mono n _ r); [lia|apply K, Y].
  - cbn in *. destruct q as [|q]; [destruct M|]. cbn. destruct M as [L M]. split; [exact L|]. intros a. apply IH; [apply M|apply Y|exact K].
Qed.
Fixpoint p_slots (th : bytes32) (t : merkle_tree) (k : nat) (o : N) : prog ptree :=
  match k with
  | O => match om_get N.ltb o (mt_map t) with
         | Some (p, m) => Done (PLeaf p m)
         | None => Ask (@s_entropy (always th) (mt_entropy t) o) (fun h => Done (PConc h))
         end
  | S k' => andthen (p_slots th t k' o) (fun l => andthen (p_slots th t k' (o + 2 ^ N.of_nat k')%N) (fun r => Done (PBr l r)))
  end.
Lemma p_slots_exec H t k : forall o, exec H (p_slots (H s_node_tag) t k o) = full_tree k o (@slot H t).
Proof.
  induction k as [|k IH]; intros o; cbn [p_slots full_tree].
  - unfold slot. destruct (om_get _ _ _) as [[p m]|]; reflexivity.
  - rewrite !exec_andthen, !IH. reflexivity.
Qed.
Lemma p_slots_modest th n t k : 162 <= n -> forall o, modest n (2 ^ k) (p_slots th t k o).
Proof.
  intros N. induction k as [|k IH]; intros o; cbn [p_slots].
  - destruct (om_get _ _ _) as [[p m]|]; [exact I|]. cbn. split; [|intros; exact I]. eapply Nat.le_trans; [apply (@entropy_length (always th))|exact N].
  - replace (2 ^ S k) with (2 ^ k + (2 ^ k + 0)) by (cbn; lia). apply modest_andthen; [apply IH|]. intros l. apply modest_andthen; [apply IH|intros; exact I].
Qed.
Lemma p_slots_size th t k : forall o, returns (fun T => p_size T + 1 <= 2 * 2 ^ k) (p_slots th t k o).
Proof.
  induction k as [|k IH]; intros o; cbn [p_slots].
  - destruct (om_get _ _ _) as [[p m]|]; cbn; [lia|]. intros. lia.
  - eapply returns_andthen; [apply IH|]. intros l Bl. eapply returns_andthen; [apply IH|]. intros r Br. cbn [returns p_size Nat.pow] in *. lia.
Qed.
Lemma p_aside_whole H W f pos k : forall d o, exec H (p_aside (H s_node_tag) W d k o (full_tree k o f) pos) = @aside H W d k o f pos.
Proof.
  induction k as [|k IH]; intros d o; [reflexivity|]. cbn [full_tree aside p_aside].
  destruct (_ <=? pos)%N; rewrite exec_andthen, p_hash_exec, exec_andthen, IH; reflexivity.
Qed.
Definition p_answer (t : merkle_tree) (o : opening) : prog opened :=
  Ask s_node_tag (fun th => andthen (p_slots th t (mt_depth t) 0) (fun T => p_open th (mt_method t) (mt_depth t) (mt_cofactor t) T o)).
Lemma p_answer_modest n D t o : 162 <= n -> mt_depth t <= D -> modest n (3 * 2 ^ D + 2) (p_answer t o).
Proof.
  intros N L. assert (P : 2 ^ mt_depth t <= 2 ^ D) by (apply Nat.pow_le_mono_r; [discriminate|exact L]).
  apply (modest_mono n _ (1 + (2 ^ mt_depth t + (2 * 2 ^ mt_depth t + 1)))); [lia|].
  split; [eapply Nat.le_trans; [apply tag_length|exact N]|]. intros th.
  apply (modest_after n (fun T => p_size T + 1 <= 2 * 2 ^ mt_depth t) _ _ (2 ^ mt_depth t) (2 * 2 ^ mt_depth t + 1));
    [apply p_slots_modest, N|apply p_slots_size|]. intros T B. cbv beta in B.
  eapply modest_mono; [|apply p_open_modest, N]. lia.
Qed.
Lemma p_answer_exec H src e t ids o : valid_source src -> try_commit src (Some e) = Ret (Ok t) ->
  (forall p, In p ids -> exists m, In (p, m) (ms_messages src)) -> incl (names o) ids -> gives H t o (exec H (p_answer t o)).
Proof.
  intros V E own I. pose proof (try_commit_good _ _ _ V E) as good. unfold p_answer. cbn [exec]. rewrite exec_andthen, p_slots_exec. fold (@tree_full H t).
  destruct o as [js|pid|]; cbn [p_open names] in *; rewrite exec_andthen.
  - rewrite p_restrict_exec. cbn [exec gives]. eexists. destruct (@block_of_tree_wf H _ good) as [B1 [_ [B2 B3]]].
    rewrite (@conceal_except_ok H Debug _ _ js B1 B2 (pwf_loose_of _ _ _ B3)); [reflexivity|].
    intros p J. destruct (own p (I p J)) as [m J1]. apply in_map_iff. exists (p, m). split; [reflexivity|].
    apply tree_full_pleaves; [exact good|]. rewrite (messages_kept src _ _ V E). exact J1.
  - cbn [exec gives]. destruct (own pid (I pid (or_introl eq_refl))) as [m J1].
    rewrite (@tree_proof_is H Debug src (Some e) t pid m V E J1), (made_method src e t V E). do 3 f_equal.
    unfold tree_full. rewrite p_aside_whole. reflexivity.
  - rewrite p_hash_exec, exec_andthen. cbn [p_finish exec gives]. rewrite (tree_commit_any Debug t (gt_depth _ good)). reflexivity.
Qed.

(** ** Conversations *)
Fixpoint p_talks (ts : list merkle_tree) (p : talks) : prog bool :=
  match p with
  | Says a => Done a
  | TalksHash s k => Ask s (fun a => p_talks ts (k a))
  | TalksOpen i o k => match nth_error ts i with Some t => andthen (p_answer t o) (fun x => p_talks ts (k x)) | None => Done false end
  end.
Definition answers (H : Hasher) (ids : list bytes32) (t : merkle_tree) : Prop :=
  forall o, incl (names o) ids -> gives H t o (exec H (p_answer t o)).
Lemma p_talks_exec H n idss ts p : length idss = length ts ->
  (forall i ids t, nth_error idss i = Some ids -> nth_error ts i = Some t -> answers H ids t) ->
  forall q v a, polite_all idss n q v p -> (ends_all H ts p a <-> exec H (p_talks ts p) = a).
Proof.
  intros Ln An. induction p as [b|s k IH|i o k IH]; intros q v a P; cbn [p_talks exec]; cbn [polite_all] in P.
  - split; [intros X; inversion X; reflexivity|intros <-; constructor].
  - destruct q as [|q]; [destruct P|]. destruct P as [_ P]. rewrite <- (IH _ _ _ _ (P _)).
    split; [intros X; inversion X; assumption|intros X; constructor; exact X].
  - destruct v as [|v]; [destruct P|]. destruct P as [(ids & Ni & L) P].
    destruct (nth_error ts i) as [t|] eqn:Nt.
    + pose proof (An _ _ _ Ni Nt o L) as G. rewrite exec_andthen, <- (IH _ _ _ _ (P _)). split.
      * intros X; inversion X as [|?|i' t' o' x k' a' N' G' Y]; subst. rewrite Nt in N'. injection N' as <-. rewrite (gives_one _ _ _ _ _ G G'). exact Y.
      * intros X. econstructor; [exact Nt|exact G|exact X].
    + exfalso. apply nth_error_None in Nt. assert (i < length idss) by (apply nth_error_Some; congruence). lia.
Qed.

Fixpoint along {X} (p : prog X) (k : X -> talk) : talk :=
  match p with Done a => k a | Ask s c => TalkHash s (fun a => along (c a) k) end.
Lemma along_ends {X} H t (p : prog X) k a : ends H t (along p k) a <-> ends H t (k (exec H p)) a.
Proof.
  induction p as [b|s c IH]; cbn [along exec]; [reflexivity|]. rewrite <- IH. split; [intros Y; inversion Y; assumption|intros Y; constructor; exact Y].
Qed.
Lemma along_polite {X} ids n r v (p : prog X) k : (forall x, polite ids n r v (k x)) -> forall q, modest n q p -> polite ids n (q + r) v (along p k).
Proof.
  intros K. assert (Mono : forall T q q', q <= q' -> polite ids n q v T -> polite ids n q' v T).
  { clear. intros T. revert v. induction T as [b|s c IH|o c IH]; intros v q q' L P; cbn [polite] in *; [exact I| |].
    - destruct q as [|q]; [destruct P|]. destruct q' as [|q']; [lia|]. destruct P as [Ls P]. split; [exact Ls|]. intros a. eapply IH; [|apply P]. lia.
    - destruct v as [|v]; [destruct P|]. destruct P as [Ls P]. split; [exact Ls|]. intros a. eapply IH; [exact L|apply P]. }
  induction p as [b|s c IH]; intros q M; cbn [along].
  - apply (Mono _ r); [lia|apply K].
  - cbn in M. destruct q as [|q]; [destruct M|]. destruct M as [L M]. cbn [Nat.add polite]. split; [exact L|]. intros a. apply IH, M.
Qed.
Lemma polite_more ids n T : forall q v v', v <= v' -> polite ids n q v T -> polite ids n q v' T.
Proof.
  induction T as [b|s c IH|o c IH]; intros q v v' L P; cbn [polite] in *; [exact I| |].
  - destruct q as [|q]; [destruct P|]. destruct P as [Ls P]. split; [exact Ls|]. intros a. eapply IH; [exact L|apply P].
  - destruct v as [|v]; [destruct P|]. destruct v' as [|v']; [lia|]. destruct P as [Ls P]. split; [exact Ls|]. intros a. eapply IH; [|apply P]. lia.
Qed.

(** The adversary who talks about one commitment and answers the other questions alone *)
Fixpoint about (i : nat) (ts : list merkle_tree) (p : talks) : talk :=
  match p with
  | Says a => Say a
  | TalksHash s k => TalkHash s (fun a => about i ts (k a))
  | TalksOpen j o k =>
      if j =? i then TalkOpen o (fun x => about i ts (k x))
      else match nth_error ts j with Some t => along (p_answer t o) (fun x => about i ts (k x)) | None => Say false end
  end.
Lemma about_polite n D idss i ids ts p (N : 162 <= n) (Ni : nth_error idss i = Some ids) (Dt : forall t, In t ts -> mt_depth t <= D) :
  forall q v, polite_all idss n q v p -> polite ids n (q + v * (3 * 2 ^ D + 2)) v (about i ts p).
Proof.
  set (C := 3 * 2 ^ D + 2). induction p as [b|s k IH|j o k IH]; intros q v P; cbn [about]; cbn [polite_all] in P; [exact I| |].
  - destruct q as [|q]; [destruct P|]. destruct P as [L P]. cbn [Nat.add polite]. split; [exact L|]. intros a. apply IH, P.
  - destruct v as [|v]; [destruct P|]. destruct P as [(ids' & Nj & L) P]. destruct (Nat.eqb_spec j i) as [->|Ne].
    + cbn [polite]. rewrite Nj in Ni. injection Ni as ->. split; [exact L|]. intros x.
      assert (Y := IH x q v (P x)). clear - Y.
      assert (Z : forall T q q' v, q <= q' -> polite ids n q v T -> polite ids n q' v T).
      { clear. induction T as [b|s c IH|o c IH]; intros q q' v L P; cbn [polite] in *; [exact I| |].
        - destruct q as [|q]; [destruct P|]. destruct q' as [|q']; [lia|]. destruct P as [Ls P]. split; [exact Ls|]. intros a. eapply IH; [|apply P]. lia.
        - destruct v as [|v]; [destruct P|]. destruct P as [Ls P]. split; [exact Ls|]. intros a. eapply IH; [exact L|apply P]. }
      eapply Z; [|exact Y]. cbn. lia.
    + destruct (nth_error ts j) as [t|] eqn:Nt; [|exact I]. apply (polite_more _ _ _ _ v); [lia|].
      replace (q + S v * C) with (C + (q + v * C)) by (cbn; lia). apply along_polite; [intros x; apply IH, P|].
      apply p_answer_modest; [exact N|]. apply Dt. eapply nth_error_In, Nt.
Qed.
Lemma about_ends H n idss i ids ts ts' t p (Ni : nth_error idss i = Some ids) (Nt : nth_error ts' i = Some t) (An : answers H ids t)
  (Off : forall j, j <> i -> nth_error ts j = nth_error ts' j) :
  forall q v a, polite_all idss n q v p -> (ends H t (about i ts p) a <-> exec H (p_talks ts' p) = a).
Proof.
  induction p as [b|s k IH|j o k IH]; intros q v a P; cbn [about p_talks exec]; cbn [polite_all] in P.
  - split; [intros X; inversion X; reflexivity|intros <-; constructor].
  - destruct q as [|q]; [destruct P|]. destruct P as [_ P]. rewrite <- (IH _ _ _ _ (P _)).
    split; [intros X; inversion X; assumption|intros X; constructor; exact X].
  - destruct v as [|v]; [destruct P|]. destruct P as [(ids' & Nj & L) P]. destruct (Nat.eqb_spec j i) as [->|Ne].
    + rewrite Nj in Ni. injection Ni as ->. rewrite Nt, exec_andthen, <- (IH _ _ _ _ (P _)). pose proof (An o L) as G. split.
      * intros X; inversion X as [|?|o' x k' a' G' Y]; subst. rewrite (gives_one _ _ _ _ _ G G'). exact Y.
      * intros X. econstructor; [exact G|exact X].
    + rewrite (Off j Ne). destruct (nth_error ts' j) as [t'|] eqn:Nt'.
      * rewrite along_ends, exec_andthen. apply (IH _ _ _ _ (P _)).
      * split; [intros X; inversion X; reflexivity|intros <-; constructor].
Qed.

(** ** Counting *)
Definition fine (D : nat) (ids : list bytes32) (src : multi_source) (t : merkle_tree) : Prop :=
  valid_source src /\ ms_static_entropy src = None /\ try_commit src (Some 0%N) = Ret (Ok t) /\
  (forall p, In p ids -> exists m, In (p, m) (ms_messages src)) /\ mt_depth t <= D.
Lemma fine_answers H D ids src t e : fine D ids src t -> answers H ids (with_entropy t e).
Proof. intros (V & S0 & E & own & _) o I. eapply p_answer_exec; [exact V|exact (commit_entropy src 0 e t S0 E)|exact own|exact I]. Qed.

Fixpoint entropies (Es : list N) (s : nat) : list (list N) :=
  match s with O => [[]] | S s' => flat_map (fun e => map (cons e) (entropies Es s')) Es end.
Definition drawn_trees (l : list merkle_tree) (es : list N) : list merkle_tree := map (fun x => with_entropy (fst x) (snd x)) (combine l es).
Lemma sum_flat_map {X Y} (g : Y -> N) (h : X -> list Y) L : GameHideProofs.sum g (flat_map h L) = GameHideProofs.sum (fun x => GameHideProofs.sum g (h x)) L.
Proof. induction L as [|x L IH]; [reflexivity|]. cbn [flat_map]. rewrite GameHideProofs.sum_app, IH. reflexivity. Qed.
Lemma entropies_length Es s : length (entropies Es s) = length Es ^ s.
Proof.
  induction s as [|s IH]; [reflexivity|]. cbn [entropies Nat.pow]. rewrite <- IH. generalize (entropies Es s) as M. intros M.
  induction Es as [|e Es' IHE]; [reflexivity|]. cbn [flat_map length]. rewrite app_length, map_length. cbn. f_equal.
  clear - M. induction Es' as [|x Es' IH]; [reflexivity|]. cbn [flat_map length]. rewrite app_length, map_length. cbn. f_equal. exact IH.
Qed.
Lemma entropies_In Es s : forall es, In es (entropies Es s) <-> length es = s /\ forall e, In e es -> In e Es.
Proof.
  induction s as [|s IH]; intros es; cbn [entropies].
  - cbn. split; [intros [<-|[]]; split; [reflexivity|intros e []]|]. intros [L _]. left. destruct es; [reflexivity|discriminate].
  - rewrite in_flat_map. split.
    + intros (e & Ie & I). apply in_map_iff in I as (es' & <- & I'). apply IH in I' as [L A]. split; [cbn; lia|]. intros x [<-|Ix]; auto.
    + intros [L A]. destruct es as [|e es']; [discriminate|]. exists e. split; [apply A; left; reflexivity|]. apply in_map. apply IH.
      split; [cbn in L; lia|]. intros x Ix. apply A. right. exact Ix.
Qed.
Lemma entropies_NoDup Es s : NoDup Es -> NoDup (entropies Es s).
Proof.
  intros ND. induction s as [|s IH]; cbn [entropies]; [repeat constructor; intros []|].
  revert IH. generalize (entropies Es s) as M. intros M IH.
  induction ND as [|e L Ne ND IHN]; cbn [flat_map]; [constructor|]. apply NoDup_app_intro.
  - apply FinFun.Injective_map_NoDup; [intros a b Q; congruence|exact IH].
  - exact IHN.
  - intros x I1 I2. apply in_map_iff in I1 as (y & <- & _). apply in_flat_map in I2 as (e' & Ie & I2). apply in_map_iff in I2 as (z & Q & _).
    injection Q as -> _. exact (Ne Ie).
Qed.

Section Count.
Context (n : nat) (U : list (list byte)) (q v D : nat) (A : talks) (idss : list (list bytes32)).
Context (UU : universe n U) (Sh : 162 <= n) (Po : polite_all idss n q v A).
Context (Es : list N) (Fs : list (list bytes32)).
Context (NE : NoDup Es) (IE : forall e, In e Es <-> (e < 2 ^ 64)%N) (LE : N.of_nat (length Es) = (2 ^ 64)%N).
Context (LF : lists_all Fs (fun f => length f = length U)).
Notation sum := GameHideProofs.sum.
Definition outcome_of (f : list bytes32) (ts : list merkle_tree) : bool := exec (table U f) (p_talks ts A).
Definition yes_count (pre l : list merkle_tree) : N :=
  sum (fun es => sum (fun f => ind (outcome_of f (pre ++ drawn_trees l es))) Fs) (entropies Es (length l)).
Definition loss : N := (((N.of_nat q + (N.of_nat v + 1) * (5 * 2 ^ N.of_nat D + 4)) * 2 ^ 64 + (2 * 2 ^ N.of_nat D + 2) ^ 2) * 2 ^ (256 * N.of_nat (length U)))%N.

(** One commitment is exchanged. *)
Lemma one_count pre post ids src t : (forall x, In x (pre ++ post) -> mt_depth x <= D) -> nth_error idss (length pre) = Some ids -> fine D ids src t ->
  counts (guesses_talk U src (about (length pre) (pre ++ t :: post) A))
    (sum (fun e => sum (fun f => ind (outcome_of f (pre ++ with_entropy t e :: post))) Fs) Es).
Proof.
  intros Dt Ni Fi. pose proof Fi as (V & S0 & E & own & Ld).
  pose proof (counts_exist (guesses_talk U src (about (length pre) (pre ++ t :: post) A))
    (fun ef => outcome_of (snd ef) (pre ++ with_entropy t (fst ef) :: post)) (list_prod Es Fs)) as C.
  rewrite sum_prod in C. apply C; [apply NoDup_prod; [exact NE|apply LF]|]. clear C. intros [e f]. cbn [fst snd].
  rewrite in_prod_iff, IE, (proj2 LF f). unfold guesses_talk, outcome_of.
  assert (X : ends (table U f) (with_entropy t e) (about (length pre) (pre ++ t :: post) A) true <->
    exec (table U f) (p_talks (pre ++ with_entropy t e :: post) A) = true).
  { eapply about_ends; [exact Ni| |eapply fine_answers, Fi| |exact Po].
    - rewrite nth_error_app2, Nat.sub_diag by lia. reflexivity.
    - intros j Ne. destruct (Nat.ltb_spec j (length pre)); [rewrite !nth_error_app1 by lia; reflexivity|].
      rewrite !nth_error_app2 by lia. destruct (j - length pre) eqn:Q; [lia|]. reflexivity. }
  split.
  - intros (B & L & t' & E' & Y). rewrite (commit_entropy src 0 e t S0 E) in E'. injection E' as <-. split; [auto|]. apply X, Y.
  - intros [[B L] Y]. split; [exact B|split; [exact L|]]. exists (with_entropy t e). split; [exact (commit_entropy src 0 e t S0 E)|apply X, Y].
Qed.
Lemma swap_one pre post ids src1 src2 t1 t2 : (forall x, In x (pre ++ post) -> mt_depth x <= D) -> nth_error idss (length pre) = Some ids ->
  fine D ids src1 t1 -> fine D ids src2 t2 -> ms_method src1 = ms_method src2 ->
  (forall p, In p ids -> exists m, In (p, m) (ms_messages src1) /\ In (p, m) (ms_messages src2)) ->
  mt_depth t1 = mt_depth t2 -> mt_cofactor t1 = mt_cofactor t2 -> screened_block t1 t2 ids ->
  (sum (fun e => sum (fun f => ind (outcome_of f (pre ++ with_entropy t1 e :: post))) Fs) Es * 2 ^ 63 <=
   sum (fun e => sum (fun f => ind (outcome_of f (pre ++ with_entropy t2 e :: post))) Fs) Es * 2 ^ 63 + loss)%N.
Proof.
  intros Dt Ni F1 F2 QM SH QD QC SC.
  pose proof (one_count pre post ids src1 t1 Dt Ni F1) as C1. pose proof (one_count pre post ids src2 t2 Dt Ni F2) as C2.
  destruct F1 as (V1 & S1 & E1 & _ & L1), F2 as (V2 & S2 & E2 & _ & L2).
  assert (C2' : counts (guesses_talk U src2 (about (length pre) (pre ++ t1 :: post) A))
    (sum (fun e => sum (fun f => ind (outcome_of f (pre ++ with_entropy t2 e :: post))) Fs) Es)).
  { eapply counts_iff; [|exact C2]. intros [e f]. unfold guesses_talk.
    assert (X : forall t', (try_commit src2 (Some e) = Ret (Ok t') ->
      ends (table U f) t' (about (length pre) (pre ++ t2 :: post) A) true <-> ends (table U f) t' (about (length pre) (pre ++ t1 :: post) A) true)%type).
    { intros t' E'. assert (An : answers (table U f) ids t').
      { intros o I. eapply p_answer_exec; [exact V2|exact E'| |exact I]. intros p J. destruct (SH p J) as (m & _ & Y). exists m. exact Y. }
      transitivity (exec (table U f) (p_talks (pre ++ t' :: post) A) = true); [|symmetry];
        (eapply about_ends; [exact Ni| |exact An| |exact Po];
        [rewrite nth_error_app2, Nat.sub_diag by lia; reflexivity|
         intros j Ne; destruct (Nat.ltb_spec j (length pre)); [rewrite !nth_error_app1 by lia; reflexivity|];
         rewrite !nth_error_app2 by lia; destruct (j - length pre) eqn:Q; [lia|reflexivity]]). }
    split; intros (B & L & t' & E' & Y); (split; [exact B|split; [exact L|]]); exists t'; (split; [exact E'|]); apply (X t' E'), Y. }
  assert (Dt' : forall x, In x (pre ++ t1 :: post) -> mt_depth x <= D).
  { intros x I. apply in_app_or in I as [I|[<-|I]]; [apply Dt, in_or_app; left; exact I|exact L1|apply Dt, in_or_app; right; exact I]. }
  pose proof (about_polite n D idss _ ids _ A Sh Ni Dt' q v Po) as PB.
  pose proof (c101_hidden n U _ v D _ src1 src2 t1 t2 ids _ _ UU Sh PB V1 V2 S1 S2 E1 E2 QM QD QC L1 SH SC C1 C2') as X.
  eapply N.le_trans; [exact X|]. apply N.add_le_mono_l. unfold loss. apply N.mul_le_mono_r, N.add_le_mono_r, N.mul_le_mono_r.
  rewrite Nat2N.inj_add, !Nat2N.inj_mul, Nat2N.inj_add, Nat2N.inj_mul, Nat2N.inj_pow. change (N.of_nat 2) with 2%N. change (N.of_nat 3) with 3%N.
  set (w := (2 ^ N.of_nat D)%N). clearbody w. clear. nia.
Qed.

(** All of them are. *)
Lemma yes_cons pre t l : yes_count pre (t :: l) = sum (fun e => yes_count (pre ++ [with_entropy t e]) l) Es.
Proof.
  unfold yes_count. cbn [length entropies]. rewrite sum_flat_map. apply sum_ext. intros e _. rewrite sum_map. apply sum_ext. intros es _.
  apply sum_ext. intros f _. rewrite <- app_assoc. reflexivity.
Qed.
Lemma yes_swap pre t l : yes_count pre (t :: l) =
  sum (fun es => sum (fun e => sum (fun f => ind (outcome_of f (pre ++ with_entropy t e :: drawn_trees l es))) Fs) Es) (entropies Es (length l)).
Proof.
  unfold yes_count. cbn [length entropies]. rewrite sum_flat_map, sum_swap. apply sum_ext. intros e _. rewrite sum_map. reflexivity.
Qed.
Inductive pairs : list (list bytes32) -> list merkle_tree -> list merkle_tree -> Prop :=
| pairs_nil : pairs [] [] []
| pairs_cons ids src1 src2 t1 t2 l l1 l2 : fine D ids src1 t1 -> fine D ids src2 t2 -> ms_method src1 = ms_method src2 ->
    (forall p, In p ids -> exists m, In (p, m) (ms_messages src1) /\ In (p, m) (ms_messages src2)) ->
    mt_depth t1 = mt_depth t2 -> mt_cofactor t1 = mt_cofactor t2 -> screened_block t1 t2 ids ->
    pairs l l1 l2 -> pairs (ids :: l) (t1 :: l1) (t2 :: l2).
Lemma pairs_depth l l1 l2 : pairs l l1 l2 -> length l1 = length l2 /\ forall t es, In t (drawn_trees l2 es) -> mt_depth t <= D.
Proof.
  induction 1 as [|ids src1 src2 t1 t2 l l1 l2 F1 F2 QM SH QD QC SC P [IHl IH]]; [split; [reflexivity|intros t es []]|].
  split; [cbn; lia|]. intros t es I. destruct es as [|e es]; [destruct I|]. destruct I as [<-|I]; [apply F2|]. exact (IH t es I).
Qed.
Lemma all_steps l l1 l2 : pairs l l1 l2 -> forall pids pre, idss = pids ++ l -> length pids = length pre -> (forall x, In x pre -> mt_depth x <= D) ->
  (yes_count pre l1 * 2 ^ 127 <= yes_count pre l2 * 2 ^ 127 + N.of_nat (length l) * loss * 2 ^ (64 * N.of_nat (length l)))%N.
Proof.
  induction 1 as [|ids src1 src2 t1 t2 l l1 l2 F1 F2 QM SH QD QC SC P IH]; intros pids pre QI QL DP; [cbn [length]; rewrite N.mul_0_l; lia|].
  destruct (pairs_depth _ _ _ P) as [Ll Dd].
  assert (Ni : nth_error idss (length pre) = Some ids) by (rewrite QI, nth_error_app2, QL, Nat.sub_diag by lia; reflexivity).
  set (m := N.of_nat (length l)) in *.
  (* the others first *)
  assert (S1 : (yes_count pre (t1 :: l1) * 2 ^ 127 <= yes_count pre (t1 :: l2) * 2 ^ 127 + m * loss * 2 ^ (64 * (m + 1)))%N).
  { rewrite !yes_cons, <- !sum_mul.
    replace (m * loss * 2 ^ (64 * (m + 1)))%N with (sum (fun _ : N => m * loss * 2 ^ (64 * m)) Es)%N.
    - rewrite <- sum_add. apply sum_le. intros e _. apply (IH (pids ++ [ids])).
      + rewrite <- app_assoc. exact QI.
      + rewrite !app_length. cbn. lia.
      + intros x I. apply in_app_or in I as [I|[<-|[]]]; [apply DP, I|apply F1].
    - rewrite sum_same, LE, N.mul_add_distr_l, N.mul_1_r, N.pow_add_r. lia. }
  assert (S2 : (yes_count pre (t1 :: l2) * 2 ^ 63 <= yes_count pre (t2 :: l2) * 2 ^ 63 + loss * 2 ^ (64 * m))%N).
  { rewrite !yes_swap, <- !sum_mul.
    replace (loss * 2 ^ (64 * m))%N with (sum (fun _ : list N => loss) (entropies Es (length l2)))%N.
    - rewrite <- sum_add. apply sum_le. intros es _. apply (swap_one pre (drawn_trees l2 es) ids src1 src2 t1 t2); try assumption.
      intros x I. apply in_app_or in I as [I|I]; [apply DP, I|apply (Dd x es I)].
    - rewrite sum_same, entropies_length, Nat2N.inj_pow, LE, <- N.pow_mul_r. unfold m.
      assert (LL : length l = length l2). { clear - P. induction P; cbn; congruence. } rewrite LL. apply N.mul_comm. }
  assert (S3 : (yes_count pre (t1 :: l2) * 2 ^ 127 <= yes_count pre (t2 :: l2) * 2 ^ 127 + loss * 2 ^ (64 * (m + 1)))%N).
  { apply (N.mul_le_mono_r _ _ (2 ^ 64)) in S2. rewrite N.mul_add_distr_r, <- !N.mul_assoc, <- !N.pow_add_r in S2.
    rewrite N.mul_add_distr_l, N.mul_1_r. exact S2. }
  cbn [length]. rewrite Nat2N.inj_succ, <- N.add_1_r. fold m. set (w := (2 ^ (64 * (m + 1)))%N) in *. clearbody w. set (a := (2 ^ 127)%N) in *. clearbody a.
  eapply N.le_trans; [exact S1|]. eapply N.le_trans; [apply N.add_le_mono_r, S3|]. apply N.eq_le_incl. ring.
Qed.

(** Against the specification *)
Inductive fine_each : list (list bytes32) -> list multi_source -> list merkle_tree -> Prop :=
| fine_none : fine_each [] [] []
| fine_more ids src t l ss l1 : fine D ids src t -> fine_each l ss l1 -> fine_each (ids :: l) (src :: ss) (t :: l1).
Lemma fine_trees l ss l1 : fine_each l ss l1 -> length l = length l1 /\ length ss = length l1 /\
  (forall es ts, commit_each ss es ts <-> length es = length l1 /\ (forall e, In e es -> (e < 2 ^ 64)%N) /\ ts = drawn_trees l1 es) /\
  forall H es i ids t, nth_error l i = Some ids -> nth_error (drawn_trees l1 es) i = Some t -> answers H ids t.
Proof.
  clear UU Sh Po NE IE LE LF. induction 1 as [|ids src t l ss l1 F P (IH1 & IH2 & IH3 & IH4)].
  - split; [reflexivity|split; [reflexivity|split]].
    + intros es ts. split; [intros C; inversion C; subst; repeat split; intros e []|]. intros (L & _ & ->). destruct es; [constructor|discriminate].
    + intros H es [|i] ids t N; discriminate.
  - split; [cbn; lia|split; [cbn; lia|split]].
    + intros es ts. pose proof F as (V & S0 & E & _). split.
      * intros C. inversion C as [|s e t' ss' es' ts' B E' C']; subst. apply IH3 in C' as (L & Bs & ->). split; [cbn; lia|split].
        -- intros x [<-|I]; auto.
        -- rewrite (commit_entropy src 0 e t S0 E) in E'. injection E' as <-. reflexivity.
      * intros (L & Bs & ->). destruct es as [|e es]; [discriminate|]. cbn [drawn_trees combine map fst snd]. constructor.
        -- apply Bs. left. reflexivity.
        -- exact (commit_entropy src 0 e t S0 E).
        -- apply IH3. split; [cbn in L; lia|split; [intros x I; apply Bs; right; exact I|reflexivity]].
    + intros H es [|i] ids' t' Ni Nt; (destruct es as [|e es]; [destruct (nth_error_In _ _ Nt)|]); cbn [drawn_trees combine map nth_error fst snd] in *.
      * injection Ni as ->. injection Nt as <-. eapply fine_answers, F.
      * eapply IH4; [exact Ni|exact Nt].
Qed.
Lemma yes_all ss l1 : fine_each idss ss l1 -> counts (guesses_all U ss A) (yes_count [] l1).
Proof.
  intros F. destruct (fine_trees _ _ _ F) as (Ll & Ls & C & An).
  pose proof (counts_exist (guesses_all U ss A) (fun ef => outcome_of (snd ef) (drawn_trees l1 (fst ef))) (list_prod (entropies Es (length l1)) Fs)) as X.
  rewrite sum_prod in X. apply X; [apply NoDup_prod; [apply entropies_NoDup, NE|apply LF]|]. clear X. intros [es f]. cbn [fst snd].
  rewrite in_prod_iff, entropies_In, (proj2 LF f). unfold guesses_all, outcome_of.
  assert (X : length es = length l1 -> (ends_all (table U f) (drawn_trees l1 es) A true <-> exec (table U f) (p_talks (drawn_trees l1 es) A) = true)).
  { intros L. eapply p_talks_exec; [|intros i ids t Ni Nt; eapply An; [exact Ni|exact Nt]|exact Po].
    unfold drawn_trees. rewrite map_length, combine_length. lia. }
  split.
  - intros (Lf & ts & Ce & Y). apply C in Ce as (L & B & ->). split; [split; [split; [exact L|]|exact Lf]|apply X; assumption].
    intros e I. apply IE, B, I.
  - intros [[[L B] Lf] Y]. split; [exact Lf|]. exists (drawn_trees l1 es). split; [|apply X; assumption].
    apply C. split; [exact L|split; [|reflexivity]]. intros e I. apply IE, B, I.
Qed.
Lemma alike_pairs l ss1 ss2 : alike_each D l ss1 ss2 -> exists l1 l2, fine_each l ss1 l1 /\ fine_each l ss2 l2 /\ pairs l l1 l2.
Proof.
  induction 1 as [|ids src1 src2 l ss1 ss2 X _ (l1 & l2 & G1 & G2 & P)]; [exists [], []; repeat constructor|].
  destruct X as (V1 & V2 & S1 & S2 & QM & SH & t1 & t2 & E1 & E2 & QD & QC & L & SC).
  assert (F1 : fine D ids src1 t1) by (repeat split; try assumption; try apply V1; intros p I; destruct (SH p I) as (m & Y & _); exists m; exact Y).
  assert (F2 : fine D ids src2 t2) by (repeat split; try assumption; try apply V2; [intros p I; destruct (SH p I) as (m & _ & Y); exists m; exact Y|rewrite <- QD; exact L]).
  exists (t1 :: l1), (t2 :: l2). split; [econstructor; eassumption|split; [econstructor; eassumption|]]. econstructor; eassumption.
Qed.
End Count.

Lemma counts_one {X} (P : X -> Prop) a b : counts P a -> counts P b -> a = b.
Proof.
  intros (La & NLa & ILa & <-) (Lb & NLb & ILb & <-). f_equal. apply Nat.le_antisymm; apply NoDup_incl_length; try assumption;
    intros x I; [apply ILb, ILa, I|apply ILa, ILb, I].
Qed.
Lemma c102_hidden : forall n U q v D (A : talks) idss srcs1 srcs2 k1 k2
  (strings : universe n U) (short : 162 <= n) (few : polite_all idss n q v A) (similar : alike_each D idss srcs1 srcs2)
  (yes1 : counts (guesses_all U srcs1 A) k1) (yes2 : counts (guesses_all U srcs2 A) k2),
  (k1 * 2 ^ 127 <= k2 * 2 ^ 127 +
    N.of_nat (length idss) * (((N.of_nat q + (N.of_nat v + 1) * (5 * 2 ^ N.of_nat D + 4)) * 2 ^ 64 + (2 * 2 ^ N.of_nat D + 2) ^ 2) * 2 ^ (256 * N.of_nat (length U)))
      * 2 ^ (64 * N.of_nat (length idss)))%N.
Proof.
  intros n U q v D A idss srcs1 srcs2 k1 k2 UU Sh Po Al C1 C2.
  destruct (below (2 ^ 64)) as (Es & NE & IE & LE). destruct (c86_all (length U)) as (Fs & LF & NF).
  destruct (alike_pairs D _ _ _ Al) as (l1 & l2 & G1 & G2 & P).
  rewrite (counts_one _ _ _ C1 (yes_all n U q v D A idss Sh Po Es Fs NE IE LE LF _ _ G1)).
  rewrite (counts_one _ _ _ C2 (yes_all n U q v D A idss Sh Po Es Fs NE IE LE LF _ _ G2)).
  apply (all_steps n U q v D A idss UU Sh Po Es Fs NE IE LE LF idss l1 l2 P [] []); [reflexivity|reflexivity|intros x []].
Qed.

Lemma c102_meaning : forall n U q v D (A : talks) idss srcs srcs'
  (strings : universe n U) (short : 162 <= n) (few : polite_all idss n q v A) (similar : alike_each D idss srcs srcs'),
  (exists k, counts (guesses_all U srcs A) k) /\
  (forall H es ts, commit_each srcs es ts -> exists a, forall b, ends_all H ts A b <-> b = a) /\
  counts (guesses_all U srcs (Says true)) (2 ^ (64 * N.of_nat (length idss)) * 2 ^ (256 * N.of_nat (length U))).
Proof.
  intros n U q v D A idss srcs srcs' UU Sh Po Al.
  destruct (below (2 ^ 64)) as (Es & NE & IE & LE). destruct (c86_all (length U)) as (Fs & LF & NF).
  destruct (alike_pairs D _ _ _ Al) as (l1 & l2 & G1 & G2 & P). split; [|split].
  - eexists. exact (yes_all n U q v D A idss Sh Po Es Fs NE IE LE LF _ _ G1).
  - intros H es ts C. destruct (fine_trees _ _ _ _ G1) as (Ll & Ls & Ce & An). apply Ce in C as (L & B & ->).
    exists (exec H (p_talks (drawn_trees l1 es) A)). intros b.
    rewrite (p_talks_exec H n idss (drawn_trees l1 es) A) with (q := q) (v := v); [split; intros X; symmetry; exact X| | |exact Po].
    + unfold drawn_trees. rewrite map_length, combine_length. lia.
    + intros i ids t Ni Nt. eapply An; [exact Ni|exact Nt].
  - pose proof (yes_all n U q v D (Says true) idss Sh I Es Fs NE IE LE LF _ _ G1) as C.
    unfold yes_count, outcome_of in C. cbn [p_talks exec ind] in C.
    rewrite (sum_ext _ (fun _ => N.of_nat (length Fs))) in C by (intros es _; rewrite sum_same; lia).
    destruct (fine_trees _ _ _ _ G1) as (Ll & _).
    rewrite sum_same, entropies_length, Nat2N.inj_pow, LE, <- N.pow_mul_r, NF, <- Ll in C. exact C.
Qed.
(** A thousand commitments, 2^40 hashes and 2^20 openings, trees of depth at most 16: the chances differ by less than 2^-11. *)
Lemma c102_numbers : forall n U q v (A : talks) idss srcs1 srcs2 k1 k2 all
  (strings : universe n U) (short : 162 <= n) (few : polite_all idss n q v A) (similar : alike_each 16 idss srcs1 srcs2)
  (work : (N.of_nat q <= 2 ^ 40)%N) (often : (N.of_nat v <= 2 ^ 20)%N) (many : (N.of_nat (length idss) <= 2 ^ 10)%N)
  (yes1 : counts (guesses_all U srcs1 A) k1) (yes2 : counts (guesses_all U srcs2 A) k2)
  (total : counts (guesses_all U srcs1 (Says true)) all),
  (k1 * 2 ^ 11 <= k2 * 2 ^ 11 + all)%N.
Proof.
  intros n U q v A idss srcs1 srcs2 k1 k2 all UU S F Al W Wv Wm C1 C2 CT.
  pose proof (c102_hidden n U q v 16 A idss srcs1 srcs2 k1 k2 UU S F Al C1 C2) as X.
  destruct (c102_meaning n U q v 16 A idss srcs1 srcs2 UU S F Al) as (_ & _ & M). rewrite (counts_one _ _ _ CT M).
  set (P := (2 ^ (256 * N.of_nat (length U)))%N) in *. clearbody P. set (T := (2 ^ (64 * N.of_nat (length idss)))%N) in *. clearbody T. clear - X W Wv Wm.
  set (s := N.of_nat (length idss)) in *. clearbody s.
  change (5 * 2 ^ N.of_nat 16 + 4)%N with 327684%N in X. change ((2 * 2 ^ N.of_nat 16 + 2) ^ 2)%N with 17180393476%N in X.
  assert (Y : ((N.of_nat q + (N.of_nat v + 1) * 327684) * 2 ^ 64 + 17180393476 <= 2 ^ 106)%N).
  { eapply N.le_trans; [apply N.add_le_mono_r, N.mul_le_mono_r, N.add_le_mono; [exact W|apply N.mul_le_mono_r, N.add_le_mono_r, Wv]|]. vm_compute. discriminate. }
  assert (Z : (k1 * 2 ^ 127 <= k2 * 2 ^ 127 + 2 ^ 10 * (2 ^ 106 * P) * T)%N).
  { eapply N.le_trans; [exact X|]. apply N.add_le_mono_l, N.mul_le_mono_r, N.mul_le_mono; [exact Wm|apply N.mul_le_mono_r, Y]. }
  change (2 ^ 127)%N with (2 ^ 116 * 2 ^ 11)%N in Z. replace (2 ^ 10 * (2 ^ 106 * P) * T)%N with (2 ^ 116 * (T * P))%N in Z by (change (2 ^ 116)%N with (2 ^ 10 * 2 ^ 106)%N; ring).
  apply (N.mul_le_mono_pos_l _ _ (2 ^ 116)%N); [reflexivity|]. clear - Z. set (a := (2 ^ 116)%N) in *. clearbody a. nia.
Qed.

(** Conversations about one commitment are special cases. *)
Fixpoint one_of (p : talk) : talks :=
  match p with
  | Say a => Says a
  | TalkHash s k => TalksHash s (fun a => one_of (k a))
  | TalkOpen o k => TalksOpen 0 o (fun x => one_of (k x))
  end.
Lemma one_polite ids n p : forall q v, polite ids n q v p -> polite_all [ids] n q v (one_of p).
Proof.
  induction p as [a|s k IH|o k IH]; intros q v P; cbn [one_of polite_all polite] in *; [exact I| |].
  - destruct q as [|q]; [exact P|]. destruct P as [L P]. split; [exact L|]. intros a. apply IH, P.
  - destruct v as [|v]; [exact P|]. destruct P as [L P]. split; [exists ids; split; [reflexivity|exact L]|]. intros x. apply IH, P.
Qed.
Lemma one_ends H t p : forall a, ends_all H [t] (one_of p) a <-> ends H t p a.
Proof.
  induction p as [b|s k IH|o k IH]; intros a; cbn [one_of].
  - split; intros X; inversion X; constructor.
  - split; intros X; inversion X; constructor; apply IH; assumption.
  - split; intros X.
    + inversion X as [|?|i t' o' x k' a' N G Y]; subst. injection N as <-. econstructor; [exact G|apply IH, Y].
    + inversion X as [|?|o' x k' a' G Y]; subst. econstructor; [reflexivity|exact G|apply IH, Y].
Qed.
Lemma c102_contains : forall n U q v src ids (A : talk) (few : polite ids n q v A),
  exists A', polite_all [ids] n q v A' /\ forall es f, guesses_all U [src] A' (es, f) <-> exists e, es = [e] /\ guesses_talk U src A (e, f).
Proof.
  intros n U q v src ids A P. exists (one_of A). split; [apply one_polite, P|]. intros es f. unfold guesses_all, guesses_talk. split.
  - intros (L & ts & C & X). inversion C as [|s e t ss es' ts' B E C']; subst. inversion C'; subst. apply one_ends in X. exists e.
    split; [reflexivity|]. split; [exact B|split; [exact L|]]. exists t. auto.
  - intros (e & -> & B & L & t & E & X). split; [exact L|]. exists [t]. split; [repeat constructor; assumption|apply one_ends, X].
Qed.
