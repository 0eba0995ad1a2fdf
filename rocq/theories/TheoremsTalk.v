(** C101: what any number of proofs and blocks, asked for one after another, tell about the messages never revealed. *)
From Verif Require Import Base BaseFacts OrdMap Strict Merkle MpcAtoms MpcTree MpcBlock.
From Verif Require Import SpecHash SpecTree SpecMerkle SpecFull SpecLocal SpecValid SpecFind SpecBlock SpecCommit SpecCount SpecGame SpecHideGame SpecViewGame SpecBlockGame SpecTalk.
From Verif Require Import HashFacts TreeFacts MerkleProofs MpcTreeProofs ConcealProofs LocalProofs DerivedProofs CountProofs GameProofs GameHideProofs GameViewProofs HideProofs.
From Verif Require Import TheoremsMpc TheoremsMore TheoremsBlock TheoremsLocal TheoremsHide TheoremsCount TheoremsFind TheoremsGame TheoremsHideGame TheoremsViewGame PathProofs TheoremsBlockGame.
From Verif Require Import SpecGame.
Local Open Scope nat_scope.

(** ** Computing openings from a partially revealed tree *)
Fixpoint p_restrict (th : bytes32) (g : bytes32 -> bool) (W : N) (d : nat) (t : ptree) : prog ptree :=
  match t with
  | PConc h => Done (PConc h)
  | PLeaf p m => if g p then Done (PLeaf p m) else andthen (p_hash th W d t) (fun h => Done (PConc h))
  | PBr l r =>
      if existsb (fun e => g (fst e)) (pleaves t)
      then andthen (p_restrict th g W (S d) l) (fun l' => andthen (p_restrict th g W (S d) r) (fun r' => Done (PBr l' r')))
      else andthen (p_hash th W d t) (fun h => Done (PConc h))
  end.
Lemma p_restrict_exec H g W t : forall d, exec H (p_restrict (H s_node_tag) g W d t) = @prestrict H g W d t.
Proof.
  induction t as [h|p m|l IHl r IHr]; intros d; cbn [p_restrict prestrict]; [reflexivity| |].
  - destruct (g p); [reflexivity|]. rewrite exec_andthen, p_hash_exec. reflexivity.
  - destruct (existsb _ _); rewrite exec_andthen.
    + rewrite IHl, exec_andthen, IHr. reflexivity.
    + rewrite p_hash_exec. reflexivity.
Qed.
Lemma p_restrict_modest th g W n t : 162 <= n -> forall d, modest n (p_size t) (p_restrict th g W d t).
Proof.
  intros N. assert (B : forall t d, modest n (p_size t) (andthen (p_hash th W d t) (fun h => Done (PConc h)))).
  { intros x d. replace (p_size x) with (p_size x + 0) by lia. apply modest_andthen; [apply p_hash_modest, N|intros; exact I]. }
  induction t as [h|p m|l IHl r IHr]; intros d; cbn [p_restrict]; [exact I| |].
  - destruct (g p); [exact I|apply B].
  - destruct (existsb _ _); [|apply B]. cbn [p_size]. apply modest_andthen; [apply IHl|]. intros l'.
    replace (p_size r + 1) with (p_size r + 1) by lia. apply modest_andthen; [apply IHr|]. intros; exact I.
Qed.
Fixpoint p_aside (th : bytes32) (W : N) (d k : nat) (o : N) (t : ptree) (pos : N) : prog (list bytes32) :=
  match k, t with
  | S k', PBr l r =>
      let mid := (o + 2 ^ N.of_nat k')%N in
      if (mid <=? pos)%N
      then andthen (p_hash th W (S d) l) (fun h => andthen (p_aside th W (S d) k' mid r pos) (fun hs => Done (h :: hs)))
      else andthen (p_hash th W (S d) r) (fun h => andthen (p_aside th W (S d) k' o l pos) (fun hs => Done (h :: hs)))
  | _, _ => Done []
  end.
Lemma p_aside_modest th W n k : 162 <= n -> forall d o t pos, modest n (p_size t) (p_aside th W d k o t pos).
Proof.
  intros N. induction k as [|k IH]; intros d o t pos; cbn [p_aside]; [exact I|]. destruct t as [h|p m|l r]; [exact I|exact I|].
  destruct (_ <=? pos)%N.
  - apply (modest_mono n _ (p_size l + (p_size r + 0))); [cbn [p_size]; lia|].
    apply modest_andthen; [apply p_hash_modest, N|]. intros h. apply modest_andthen; [apply IH|intros; exact I].
  - apply (modest_mono n _ (p_size r + (p_size l + 0))); [cbn [p_size]; lia|].
    apply modest_andthen; [apply p_hash_modest, N|]. intros h. apply modest_andthen; [apply IH|intros; exact I].
Qed.
Lemma full_leaf f pos p m k : forall o, (o <= pos < o + 2 ^ N.of_nat k)%N -> f pos = PLeaf p m -> In (p, m) (pleaves (full_tree k o f)).
Proof.
  induction k as [|k IH]; intros o B F; cbn [full_tree].
  - change (2 ^ N.of_nat 0)%N with 1%N in B. replace o with pos by lia. rewrite F. left. reflexivity.
  - rewrite Nat2N.inj_succ, N.pow_succ_r' in B. cbn [pleaves]. apply in_or_app.
    destruct (N.ltb_spec pos (o + 2 ^ N.of_nat k)%N); [left|right]; apply IH; auto; lia.
Qed.
Lemma p_aside_exec H g W f pos p m (F : f pos = PLeaf p m) (G : g p = true) k : forall d o, (o <= pos < o + 2 ^ N.of_nat k)%N ->
  exec H (p_aside (H s_node_tag) W d k o (@prestrict H g W d (full_tree k o f)) pos) = @aside H W d k o f pos.
Proof.
  induction k as [|k IH]; intros d o B; [reflexivity|].
  assert (E : existsb (fun e => g (fst e)) (pleaves (full_tree (S k) o f)) = true).
  { apply existsb_exists. exists (p, m). split; [eapply full_leaf; eassumption|exact G]. }
  cbn [full_tree] in *. cbn [prestrict aside]. rewrite E. cbn [p_aside].
  rewrite Nat2N.inj_succ, N.pow_succ_r' in B.
  destruct (N.leb_spec (o + 2 ^ N.of_nat k) pos)%N as [L|L]; rewrite exec_andthen, p_hash_exec, exec_andthen, IH by lia;
    cbn [exec]; rewrite (@prestrict_phash H); reflexivity.
Qed.

(** The answer to [o] from the revealed part [tr] of the tree *)
Definition p_open (th : bytes32) (mt : method) (D : nat) (c : N) (tr : ptree) (o : opening) : prog opened :=
  match o with
  | OpenBlock ids => andthen (p_restrict th (mem ids) (2 ^ N.of_nat D) 0 tr) (fun x => Done (GivenBlock (MBlock mt D c (flatten 0 x) None)))
  | OpenProof pid => andthen (p_aside th (2 ^ N.of_nat D) 0 D 0 tr (s_pos pid c D))
                       (fun hs => Done (GivenProof (MProof mt (s_pos pid c D) c hs)))
  | OpenCommitment => andthen (p_hash th (2 ^ N.of_nat D) 0 tr) (fun r => andthen (p_finish D c r) (fun y => Done (GivenCommitment y)))
  end.
Lemma p_open_modest th mt D c tr o n : 162 <= n -> modest n (p_size tr + 2) (p_open th mt D c tr o).
Proof.
  intros N. destruct o as [ids|pid|]; cbn [p_open].
  - apply modest_andthen; [apply p_restrict_modest, N|intros; exact I].
  - apply modest_andthen; [apply p_aside_modest, N|intros; exact I].
  - apply modest_andthen; [apply p_hash_modest, N|]. intros r. apply (modest_andthen n _ _ 2 0); [apply p_finish_modest, N|intros; exact I].
Qed.
Fixpoint p_talk (th : bytes32) (mt : method) (D : nat) (c : N) (tr : ptree) (p : talk) : prog bool :=
  match p with
  | Say a => Done a
  | TalkHash s k => Ask s (fun a => p_talk th mt D c tr (k a))
  | TalkOpen o k => andthen (p_open th mt D c tr o) (fun x => p_talk th mt D c tr (k x))
  end.
Lemma p_talk_modest th mt D c tr n ids S (N : 162 <= n) (B : p_size tr + 2 <= S) p : forall q v, polite ids n q v p -> modest n (q + v * S) (p_talk th mt D c tr p).
Proof.
  induction p as [a|s k IH|o k IH]; intros q v P; cbn [p_talk]; cbn [polite] in P; [exact I| |].
  - destruct q as [|q]; [destruct P|]. destruct P as [L P]. split; [exact L|]. intros a. apply IH, P.
  - destruct v as [|v]; [destruct P|]. destruct P as [L P].
    apply (modest_mono n _ ((p_size tr + 2) + (q + v * S))); [cbn; lia|]. apply modest_andthen; [apply p_open_modest, N|]. intros x. apply IH, P.
Qed.

(** ** Against the code *)
Section Open.
Context (H : Hasher) (src : multi_source) (e : N) (t : merkle_tree) (ids : list bytes32).
Context (V : valid_source src) (E : try_commit src (Some e) = Ret (Ok t)).
Context (own : forall p, In p ids -> exists m, In (p, m) (ms_messages src)).
Let W := (2 ^ N.of_nat (mt_depth t))%N.
Let tr := @prestrict H (mem ids) W 0 (@tree_full H t).
Let good : good_tree t := try_commit_good _ _ _ V E.
Lemma made_method : mt_method t = ms_method src.
Proof.
  pose proof (try_commit_spec src (Some e) (proj1 V) (proj1 (proj2 V))) as T. cbv zeta in T. rewrite E in T. apply T.
Qed.
Lemma p_open_exec o : incl (names o) ids ->
  gives H t o (exec H (p_open (H s_node_tag) (ms_method src) (mt_depth t) (mt_cofactor t) tr o)).
Proof.
  intros I. destruct o as [js|pid|]; cbn [p_open names] in *; rewrite exec_andthen.
  - rewrite p_restrict_exec. cbn [exec gives]. eexists. destruct (@block_of_tree_wf H _ good) as [B1 [_ [B2 B3]]].
    rewrite (@conceal_except_ok H Debug _ _ js B1 B2 (pwf_loose_of _ _ _ B3)).
    + cbn [block_of_tree mb_method mb_depth mb_cofactor]. rewrite made_method.
      fold W. unfold tr. rewrite (@prestrict_twice H), (@prestrict_ext H (fun p => mem ids p && mem js p)%bool (mem js)); [reflexivity|].
      intros p m _. destruct (mem js p) eqn:Q; [|apply Bool.andb_false_r]. apply mem_In in Q. rewrite (proj2 (mem_In _ _) (I p Q)). reflexivity.
    + intros p J. destruct (own p (I p J)) as [m J1]. apply in_map_iff. exists (p, m). split; [reflexivity|].
      apply tree_full_pleaves; [exact good|]. rewrite (messages_kept src _ _ V E). exact J1.
  - cbn [exec gives]. assert (J : In pid ids) by (apply I; left; reflexivity). destruct (own pid J) as [m J1].
    rewrite (@tree_proof_is H Debug src (Some e) t pid m V E J1). do 3 f_equal.
    unfold tr, tree_full, W. rewrite <- (messages_kept src _ _ V E) in J1. pose proof (pos_cell _ _ _ good J1) as Q.
    erewrite p_aside_exec; [reflexivity| | |].
    + unfold slot. unfold tcells in Q. rewrite Q. reflexivity.
    + apply mem_In. exact J.
    + assert (PL : (s_pos pid (mt_cofactor t) (mt_depth t) < 2 ^ N.of_nat (mt_depth t))%N) by (apply pos_spec, (gt_depth _ good)). clear - PL. lia.
  - rewrite p_hash_exec, exec_andthen. cbn [p_finish exec gives]. rewrite (tree_commit_any Debug t (gt_depth _ good)). f_equal. unfold pcommit, tr. fold W. rewrite (@prestrict_phash H). reflexivity.
Qed.
Lemma gives_one o x y : gives H t o x -> gives H t o y -> x = y.
Proof.
  intros A B. destruct o, x, y; cbn [gives] in *; try contradiction; [destruct A as [n A], B as [n' B]|..]; rewrite A in B; congruence.
Qed.
Lemma p_talk_exec n p : forall q v a, polite ids n q v p ->
  (ends H t p a <-> exec H (p_talk (H s_node_tag) (ms_method src) (mt_depth t) (mt_cofactor t) tr p) = a).
Proof.
  induction p as [b|s k IH|o k IH]; intros q v a P; cbn [p_talk exec]; cbn [polite] in P.
  - split; [intros X; inversion X; reflexivity|intros <-; constructor].
  - destruct q as [|q]; [destruct P|]. destruct P as [_ P]. rewrite <- (IH _ _ _ _ (P _)).
    split; [intros X; inversion X; assumption|intros X; constructor; exact X].
  - destruct v as [|v]; [destruct P|]. destruct P as [L P]. rewrite exec_andthen, <- (IH _ _ _ _ (P _)).
    pose proof (p_open_exec o L) as G. split.
    + intros X; inversion X as [|?|o' x k' a' G' Y]; subst. rewrite (gives_one _ _ _ G G'). exact Y.
    + intros X. econstructor; [exact G|exact X].
Qed.
End Open.
Lemma rebuild_size c g k : forall o hs, p_size (fst (rebuild c g k o hs)) + 1 <= 2 * 2 ^ k.
Proof.
  induction k as [|k IH]; intros o hs; cbn [rebuild].
  - destruct (vis c g 0 o); [|cbn; lia]. destruct (c o) as [[p m]|]; cbn; lia.
  - assert (P : 1 <= 2 ^ k) by (pose proof (Nat.pow_nonzero 2 k); lia). destruct (vis c g (S k) o); [|cbn [fst p_size Nat.pow]; lia].
    pose proof (IH o hs) as X. destruct (rebuild c g k o hs) as [l hs1]. pose proof (IH (o + 2 ^ N.of_nat k)%N hs1) as Y.
    destruct (rebuild c g k (o + 2 ^ N.of_nat k)%N hs1) as [r hs2]. cbn [fst p_size Nat.pow] in *. lia.
Qed.

(** The adversary who sees one block revealing everything that may be asked for *)
Definition from_block (D : nat) (c : cells) (ids : list bytes32) (A : talk) (b : merkle_block) : prog bool :=
  Ask s_node_tag (fun th => p_talk th (mb_method b) D (mb_cofactor b)
    (fst (rebuild c (mem ids) D 0 (hidden_hashes (mb_cross_section b)))) A).
Lemma from_block_guesses U src t D c ids n q v A :
  valid_source src -> ms_static_entropy src = None -> try_commit src (Some 0%N) = Ret (Ok t) -> D = mt_depth t ->
  (forall p, In p ids -> exists m, In (p, m) (ms_messages src)) ->
  (forall k o hs, rebuild c (mem ids) k o hs = rebuild (tcells t) (mem ids) k o hs) -> polite ids n q v A ->
  forall ef, guesses_talk U src A ef <-> guesses_block U src ids (from_block D c ids A) ef.
Proof.
  intros V S0 Et -> own Rc P [e f]. unfold guesses_talk, guesses_block. set (HH := table U f).
  assert (K : forall t', try_commit src (Some e) = Ret (Ok t') -> exists b n', @conceal_except HH Debug (@block_of_tree HH t') ids = Ret (b, Ok n') /\
    (ends HH t' A true <-> exec HH (from_block (mt_depth t) c ids A b) = true)).
  { intros t' E. pose proof (try_commit_good _ _ _ V E) as G. pose proof (commit_entropy src 0 e t S0 Et) as E0.
    rewrite E in E0. injection E0 as Q.
    destruct (@block_of_tree_wf HH _ G) as [B1 [_ [B2 B3]]]. eexists _, _. split.
    { apply (@conceal_except_ok HH Debug _ _ ids B1 B2 (pwf_loose_of _ _ _ B3)).
      intros p I. destruct (own p I) as [m J1]. apply in_map_iff. exists (p, m). split; [reflexivity|].
      apply tree_full_pleaves; [exact G|]. rewrite (messages_kept src _ _ V E). exact J1. }
    rewrite (p_talk_exec HH src e t' ids V E own n A q v true P). unfold from_block. cbn [exec mb_method mb_depth mb_cofactor mb_cross_section block_of_tree].
    rewrite (made_method src e t' V E), Rc.
    assert (X : @tree_full HH t' = full_tree (mt_depth t) 0 (@lpt HH (tcells t) e)) by (rewrite Q; reflexivity).
    assert (Q2 : mt_depth t' = mt_depth t) by (rewrite Q; reflexivity).
    pose proof (@hidden_prestrict HH (mt_depth t) (2 ^ N.of_nat (mt_depth t)) (tcells t) (mem ids) e (mt_depth t) 0 0 (le_n _)) as Hp.
    pose proof (@rebuild_is HH (mt_depth t) (2 ^ N.of_nat (mt_depth t)) (tcells t) (mem ids) e (mt_depth t) 0 [] (le_n _)) as R.
    rewrite app_nil_r in R. rewrite Nat.sub_diag in Hp, R. rewrite X, Q2. unfold width_of. rewrite Hp, R. cbn [fst]. reflexivity. }
  split.
  - intros (B & L & t' & E & X). split; [exact B|split; [exact L|]]. destruct (K t' E) as (b & n' & C & Q). exists t', b, n'.
    split; [exact E|split; [exact C|apply Q, X]].
  - intros (B & L & t' & b & n' & E & C & X). split; [exact B|split; [exact L|]]. destruct (K t' E) as (b' & n2 & C' & Q).
    fold HH in C. rewrite C' in C. injection C as <- _. exists t'. split; [exact E|apply Q, X].
Qed.
Lemma counts_iff {X} (P Q : X -> Prop) k : (forall x, P x <-> Q x) -> counts P k -> counts Q k.
Proof. intros I (L & N & M & C). exists L. split; [exact N|split; [|exact C]]. intros x. rewrite M. apply I. Qed.

Lemma c101_hidden : forall n U q v D (A : talk) src1 src2 t1 t2 ids k1 k2
  (strings : universe n U) (short : 162 <= n) (few : polite ids n q v A)
  (valid1 : valid_source src1) (valid2 : valid_source src2)
  (drawn1 : ms_static_entropy src1 = None) (drawn2 : ms_static_entropy src2 = None)
  (made1 : try_commit src1 (Some 0%N) = Ret (Ok t1)) (made2 : try_commit src2 (Some 0%N) = Ret (Ok t2))
  (same_method : ms_method src1 = ms_method src2) (same_depth : mt_depth t1 = mt_depth t2)
  (same_cofactor : mt_cofactor t1 = mt_cofactor t2) (depth : mt_depth t1 <= D)
  (shared : forall p, In p ids -> exists m, In (p, m) (ms_messages src1) /\ In (p, m) (ms_messages src2))
  (covered : screened_block t1 t2 ids)
  (yes1 : counts (guesses_talk U src1 A) k1) (yes2 : counts (guesses_talk U src2 A) k2),
  (k1 * 2 ^ 63 <= k2 * 2 ^ 63 +
    ((N.of_nat q + (N.of_nat v + 1) * (2 * 2 ^ N.of_nat D + 2)) * 2 ^ 64 + (2 * 2 ^ N.of_nat D + 2) ^ 2) * 2 ^ (256 * N.of_nat (length U)))%N.
Proof.
  intros n U q v D A src1 src2 t1 t2 ids k1 k2 UU S P V1 V2 S1 S2 E1 E2 QM QD QC DD SH SC C1 C2.
  pose proof (shown_agree _ _ _ _ _ _ ids V1 V2 E1 E2 QD QC SH) as AG.
  set (B := from_block (mt_depth t1) (tcells t1) ids A). set (K := 2 * 2 ^ mt_depth t1 + 1).
  assert (C1' : counts (guesses_block U src1 ids B) k1).
  { eapply counts_iff; [|exact C1]. eapply from_block_guesses; try eassumption; [reflexivity| |reflexivity].
    intros p I. destruct (SH p I) as (m & X & _). exists m. exact X. }
  assert (C2' : counts (guesses_block U src2 ids B) k2).
  { eapply counts_iff; [|exact C2]. eapply from_block_guesses; try eassumption.
    - intros p I. destruct (SH p I) as (m & _ & X). exists m. exact X.
    - apply rebuild_same, AG. }
  assert (M : forall b, modest n (1 + (q + v * K)) (B b)).
  { intros b. cbn [B from_block Nat.add]. split; [eapply Nat.le_trans; [apply tag_length|exact S]|]. intros th.
    eapply p_talk_modest; [exact S| |exact P]. pose proof (rebuild_size (tcells t1) (mem ids) (mt_depth t1) 0 (hidden_hashes (mb_cross_section b))).
    unfold K. lia. }
  pose proof (c95_hidden n U _ D B src1 src2 t1 t2 ids k1 k2 UU S M V1 V2 S1 S2 E1 E2 QM QD QC DD SH SC C1' C2') as X.
  eapply N.le_trans; [exact X|]. apply N.add_le_mono_l, N.mul_le_mono_r, N.add_le_mono_r, N.mul_le_mono_r.
  assert (Y : (N.of_nat K <= 2 * 2 ^ N.of_nat D + 1)%N).
  { unfold K. rewrite Nat2N.inj_add, Nat2N.inj_mul, Nat2N.inj_pow. apply N.add_le_mono_r. apply N.mul_le_mono_l.
    apply N.pow_le_mono_r; [discriminate|]. clear - DD. lia. }
  rewrite !Nat2N.inj_add, Nat2N.inj_mul. change (N.of_nat 1) with 1%N. set (w := (2 ^ N.of_nat D)%N) in *. clearbody w. clear - Y.
  assert (Z : (N.of_nat v * N.of_nat K <= N.of_nat v * (2 * w + 1))%N) by (apply N.mul_le_mono_l, Y). nia.
Qed.
Lemma c101_meaning : forall n U q v (A : talk) src t ids (strings : universe n U) (valid : valid_source src) (few : polite ids n q v A)
  (drawn : ms_static_entropy src = None) (made : try_commit src (Some 0%N) = Ret (Ok t))
  (own : forall p, In p ids -> exists m, In (p, m) (ms_messages src)),
  (exists k, counts (guesses_talk U src A) k) /\
  (forall H e t', try_commit src (Some e) = Ret (Ok t') -> exists a, forall b, ends H t' A b <-> b = a) /\
  counts (guesses_talk U src (Say true)) (2 ^ 64 * 2 ^ (256 * N.of_nat (length U))).
Proof.
  intros n U q v A src t ids UU V P S0 Et own.
  assert (G : forall A, polite ids n q v A -> forall ef, guesses_talk U src A ef <-> guesses_block U src ids (from_block (mt_depth t) (tcells t) ids A) ef).
  { intros B PB. eapply from_block_guesses; try eassumption; reflexivity. }
  split; [|split].
  - destruct (c95_meaning n U (from_block (mt_depth t) (tcells t) ids A) src t ids UU V S0 Et own) as ([k C] & _). exists k.
    eapply counts_iff; [|exact C]. intros ef. symmetry. apply G, P.
  - intros H e t' E. eexists. intros b. rewrite (p_talk_exec H src e t' ids V E own n A q v b P). split; intros X; symmetry; exact X.
  - destruct (c95_meaning n U (fun _ => Done true) src t ids UU V S0 Et own) as (_ & C). eapply counts_iff; [|exact C]. intros ef. rewrite (G (Say true) I).
    destruct ef as [e f]. unfold guesses_block. split; intros (B & L & t' & b & n' & E & Q & X); repeat (split; [assumption|]); exists t', b, n'; auto.
Qed.
(** 2^40 hashes and 2^20 openings against trees of depth at most 16: the chances differ by less than 2^-21. *)
Lemma c101_numbers : forall n U q v (A : talk) src1 src2 t1 t2 ids k1 k2 all
  (strings : universe n U) (short : 162 <= n) (few : polite ids n q v A) (work : (N.of_nat q <= 2 ^ 40)%N) (often : (N.of_nat v <= 2 ^ 20)%N)
  (valid1 : valid_source src1) (valid2 : valid_source src2)
  (drawn1 : ms_static_entropy src1 = None) (drawn2 : ms_static_entropy src2 = None)
  (made1 : try_commit src1 (Some 0%N) = Ret (Ok t1)) (made2 : try_commit src2 (Some 0%N) = Ret (Ok t2))
  (same_method : ms_method src1 = ms_method src2) (same_depth : mt_depth t1 = mt_depth t2)
  (same_cofactor : mt_cofactor t1 = mt_cofactor t2) (depth : mt_depth t1 <= 16)
  (shared : forall p, In p ids -> exists m, In (p, m) (ms_messages src1) /\ In (p, m) (ms_messages src2))
  (covered : screened_block t1 t2 ids)
  (yes1 : counts (guesses_talk U src1 A) k1) (yes2 : counts (guesses_talk U src2 A) k2)
  (total : counts (guesses_talk U src1 (Say true)) all),
  (k1 * 2 ^ 21 <= k2 * 2 ^ 21 + all)%N.
Proof.
  intros n U q v A src1 src2 t1 t2 ids k1 k2 all UU S F W Wv V1 V2 S1 S2 E1 E2 QM QD QC DD SH SC C1 C2 CT.
  pose proof (c101_hidden n U q v 16 A src1 src2 t1 t2 ids k1 k2 UU S F V1 V2 S1 S2 E1 E2 QM QD QC DD SH SC C1 C2) as X.
  destruct (c101_meaning n U q v A src1 t1 ids UU V1 F S1 E1) as (_ & _ & M); [intros p I; destruct (SH p I) as (m & Y & _); exists m; exact Y|].
  assert (T : all = (2 ^ 64 * 2 ^ (256 * N.of_nat (length U)))%N).
  { destruct CT as (La & NLa & ILa & <-), M as (Lb & NLb & ILb & <-). f_equal. apply Nat.le_antisymm; apply NoDup_incl_length; try assumption;
      intros x I; [apply ILb, ILa, I|apply ILa, ILb, I]. }
  rewrite T. set (P := (2 ^ (256 * N.of_nat (length U)))%N) in *. clearbody P. clear - X W Wv.
  change (2 * 2 ^ N.of_nat 16 + 2)%N with 131074%N in X.
  assert (Y : ((N.of_nat q + (N.of_nat v + 1) * 131074) * 2 ^ 64 + 131074 ^ 2 <= 2 ^ 106)%N).
  { eapply N.le_trans; [apply N.add_le_mono_r, N.mul_le_mono_r, N.add_le_mono; [exact W|apply N.mul_le_mono_r, N.add_le_mono_r, Wv]|]. vm_compute. discriminate. }
  assert (Z : (k1 * 2 ^ 63 <= k2 * 2 ^ 63 + 2 ^ 106 * P)%N).
  { eapply N.le_trans; [exact X|]. apply N.add_le_mono_l, N.mul_le_mono_r, Y. }
  change (2 ^ 63)%N with (2 ^ 42 * 2 ^ 21)%N in Z. change (2 ^ 106)%N with (2 ^ 42 * 2 ^ 64)%N in Z.
  apply (N.mul_le_mono_pos_l _ _ (2 ^ 42)%N); [reflexivity|]. lia.
Qed.

(** Adversaries who see one block, one proof or the commitment are special cases. *)
Lemma alone_ends H t p : forall a, ends H t (alone p) a <-> exec H p = a.
Proof.
  induction p as [b|s k IH]; intros a; cbn [alone exec].
  - split; [intros X; inversion X; reflexivity|intros <-; constructor].
  - rewrite <- IH. split; [intros X; inversion X; assumption|intros X; constructor; exact X].
Qed.
Lemma alone_polite ids n p : forall q v, modest n q p -> polite ids n q v (alone p).
Proof. induction p as [b|s k IH]; intros q v M; [exact I|]. cbn in *. destruct q as [|q]; [exact M|]. destruct M as [L M]. split; [exact L|]. intros a. apply IH, M. Qed.
Lemma c101_contains : forall n U q src ids pid,
  (forall A : merkle_block -> prog bool, (forall b, modest n q (A b)) -> exists A', polite ids n q 1 A' /\
    forall ef, guesses_talk U src A' ef <-> guesses_block U src ids A ef) /\
  (forall A : merkle_proof -> prog bool, (forall pf, modest n q (A pf)) -> exists A', polite [pid] n q 1 A' /\
    forall ef, guesses_talk U src A' ef <-> guesses_proof U src pid A ef) /\
  (forall A : bytes32 -> prog bool, (forall c, modest n q (A c)) -> exists A', polite [] n q 1 A' /\
    forall ef, guesses_talk U src A' ef <-> guesses U src A ef).
Proof.
  intros n U q src ids pid. split; [|split]; intros A M.
  - exists (TalkOpen (OpenBlock ids) (fun x => match x with GivenBlock b => alone (A b) | _ => Say false end)). split.
    + split; [intros x I; exact I|]. intros [b|pf|c]; [apply alone_polite, M|exact I|exact I].
    + intros [e f]. unfold guesses_talk, guesses_block. split.
      * intros (B & L & t & E & X). inversion X as [|?|o x k a G Y]; subst. destruct x as [b|?|?]; cbn [gives] in G; try contradiction. destruct G as [n' G].
        apply alone_ends in Y. split; [exact B|split; [exact L|]]. exists t, b, n'. auto.
      * intros (B & L & t & b & n' & E & G & Y). split; [exact B|split; [exact L|]]. exists t. split; [exact E|].
        apply (ends_open _ _ _ (GivenBlock b)); [exists n'; exact G|apply alone_ends, Y].
  - exists (TalkOpen (OpenProof pid) (fun x => match x with GivenProof b => alone (A b) | _ => Say false end)). split.
    + split; [intros x I; exact I|]. intros [b|pf|c]; [exact I|apply alone_polite, M|exact I].
    + intros [e f]. unfold guesses_talk, guesses_proof. split.
      * intros (B & L & t & E & X). inversion X as [|?|o x k a G Y]; subst. destruct x as [?|b|?]; cbn [gives] in G; try contradiction.
        apply alone_ends in Y. split; [exact B|split; [exact L|]]. exists t, b. auto.
      * intros (B & L & t & b & E & G & Y). split; [exact B|split; [exact L|]]. exists t. split; [exact E|].
        apply (ends_open _ _ _ (GivenProof b)); [exact G|apply alone_ends, Y].
  - exists (TalkOpen OpenCommitment (fun x => match x with GivenCommitment b => alone (A b) | _ => Say false end)). split.
    + split; [intros x I; exact I|]. intros [b|pf|c]; [exact I|exact I|apply alone_polite, M].
    + intros [e f]. unfold guesses_talk, guesses. split.
      * intros (B & L & t & E & X). inversion X as [|?|o x k a G Y]; subst. destruct x as [?|?|b]; cbn [gives] in G; try contradiction.
        apply alone_ends in Y. split; [exact B|split; [exact L|]]. exists t, b. auto.
      * intros (B & L & t & b & E & G & Y). split; [exact B|split; [exact L|]]. exists t. split; [exact E|].
        apply (ends_open _ _ _ (GivenCommitment b)); [exact G|apply alone_ends, Y].
Qed.
(** The condition on the concealed subtrees is needed. *)
Lemma c101_seen : forall n U D src1 src2 t1 t2 ids k a j (strings : universe n U) (short : 162 <= n)
  (valid1 : valid_source src1) (valid2 : valid_source src2)
  (drawn1 : ms_static_entropy src1 = None) (drawn2 : ms_static_entropy src2 = None)
  (made1 : try_commit src1 (Some 0%N) = Ret (Ok t1)) (made2 : try_commit src2 (Some 0%N) = Ret (Ok t2))
  (same_depth : mt_depth t1 = mt_depth t2) (same_cofactor : mt_cofactor t1 = mt_cofactor t2) (depth : mt_depth t1 <= D)
  (shared : forall p, In p ids -> exists m, In (p, m) (ms_messages src1) /\ In (p, m) (ms_messages src2))
  (top : concealed_top t1 ids k a) (full : forall i, within k a i -> slot_of t1 i <> None)
  (there : within k a j) (different : slot_of t1 j <> slot_of t2 j),
  exists A, polite ids n (2 * 2 ^ k) 1 A /\
    forall k1 k2, counts (guesses_talk U src1 A) k1 -> counts (guesses_talk U src2 A) k2 ->
      (k1 = 2 ^ 64 * 2 ^ (256 * N.of_nat (length U)) /\
       k2 * 2 ^ 257 <= 2 ^ 64 * (2 * (2 * 2 ^ N.of_nat D + 2)) ^ 2 * 2 ^ (256 * N.of_nat (length U)))%N.
Proof.
  intros n U D src1 src2 t1 t2 ids k a j UU S V1 V2 S1 S2 E1 E2 QD QC DD SH Top F B X.
  destruct (c95_seen n U D src1 src2 t1 t2 ids k a j UU S V1 V2 S1 S2 E1 E2 QD QC DD SH Top F B X) as (A & M & Q).
  set (T := TalkOpen (OpenBlock ids) (fun x => match x with GivenBlock b => alone (A b) | _ => Say false end)).
  assert (G : forall src ef, guesses_talk U src T ef <-> guesses_block U src ids A ef).
  { intros src [e f]. unfold guesses_talk, guesses_block. split.
    - intros (Be & L & t & E & Y). inversion Y as [|?|o x kk aa G Z]; subst. destruct x as [b|?|?]; cbn [gives] in G; try contradiction. destruct G as [n' G].
      apply alone_ends in Z. split; [exact Be|split; [exact L|]]. exists t, b, n'. auto.
    - intros (Be & L & t & b & n' & E & G & Y). split; [exact Be|split; [exact L|]]. exists t. split; [exact E|].
      apply (ends_open _ _ _ (GivenBlock b)); [exists n'; exact G|apply alone_ends, Y]. }
  exists T. split.
  - split; [intros x I; exact I|]. intros [b|pf|c]; [apply alone_polite, M|exact I|exact I].
  - intros k1 k2 C1 C2. apply Q; [eapply counts_iff; [apply G|exact C1]|eapply counts_iff; [apply G|exact C2]].
Qed.
