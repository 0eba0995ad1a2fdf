(** C95: what a partially revealed block tells about the hidden messages. *)
From Verif Require Import Base BaseFacts OrdMap Strict Merkle MpcAtoms MpcTree MpcBlock.
From Verif Require Import SpecHash SpecTree SpecMerkle SpecFull SpecLocal SpecValid SpecFind SpecBlock SpecCommit SpecCount SpecGame SpecHideGame SpecViewGame SpecBlockGame.
From Verif Require Import HashFacts TreeFacts MerkleProofs MpcTreeProofs ConcealProofs LocalProofs DerivedProofs CountProofs GameProofs GameHideProofs GameViewProofs HideProofs.
From Verif Require Import TheoremsMpc TheoremsBlock TheoremsLocal TheoremsHide TheoremsCount TheoremsFind TheoremsGame TheoremsHideGame TheoremsViewGame PathProofs.
From Verif Require Import SpecGame.
Local Open Scope nat_scope.

Notation nd := (nat * N)%type.
Definition free_node (t : merkle_tree) (x : nd) : bool :=
  existsb (fun i => match tcells t i with Some _ => false | None => true end) (N_from (snd x) (2 ^ fst x)).
Lemma free_node_iff t k o : free_node t (k, o) = true <-> exists i, (o <= i < o + 2 ^ N.of_nat k)%N /\ tcells t i = None.
Proof.
  unfold free_node. cbn [fst snd]. rewrite existsb_exists.
  assert (P : (2 ^ N.of_nat k)%N = N.of_nat (2 ^ k)) by (rewrite pow_of_nat; reflexivity). split.
  - intros (i & I & E). exists i. apply in_map_iff in I as (j & <- & J). apply in_seq in J.
    split; [rewrite P; lia|]. destruct (tcells t _); [discriminate|reflexivity].
  - intros (i & B & E). exists i. split.
    + apply in_map_iff. exists (N.to_nat (i - o)). rewrite N2Nat.id. split; [lia|]. apply in_seq. rewrite P in B. lia.
    + rewrite E. reflexivity.
Qed.
(** The hashes of the nodes [J]: those of the blinded ones are given by [cs]. *)
Fixpoint fills (fr : nd -> bool) (h : nd -> bytes32) (J : list nd) (cs : list bytes32) : list bytes32 :=
  match J with
  | [] => []
  | x :: r => if fr x then match cs with c :: cs' => c :: fills fr h r cs' | [] => b32_fill x00 :: fills fr h r [] end
              else h x :: fills fr h r cs
  end.
Lemma fills_map fr h g J : fills fr h J (map g (filter fr J)) = map (fun x => if fr x then g x else h x) J.
Proof. induction J as [|k J IH]; [reflexivity|]. cbn [fills filter map]. destruct (fr k); cbn [map]; rewrite IH; reflexivity. Qed.
Lemma fills_ext fr fr' h h' J : forall cs, (forall k, In k J -> fr k = fr' k) -> (forall k, In k J -> fr k = false -> h k = h' k) ->
  fills fr h J cs = fills fr' h' J cs.
Proof.
  induction J as [|k J IH]; intros cs E E'; [reflexivity|]. cbn [fills]. rewrite <- (E k (or_introl eq_refl)).
  assert (IH' : forall cs, fills fr h J cs = fills fr' h' J cs) by (intros; apply IH; intros; [apply E|apply E']; try right; assumption).
  destruct (fr k) eqn:F; [destruct cs; rewrite IH'; reflexivity|]. rewrite IH', (E' k (or_introl eq_refl) F). reflexivity.
Qed.

(** ** Adversaries who see the hashes of the nodes [J], none within another *)
Section One.
Context {T : Type}.
Variables (n : nat) (U : list (list byte)) (q D : nat) (A : T -> prog bool) (src : multi_source) (t : merkle_tree).
Variables (J : list nd) (make : list bytes32 -> T).
Variables (Es : list N) (Fs : list (list bytes32)) (Cs : list bytes32).
Notation Dp := (mt_depth t).
Notation W := (2 ^ N.of_nat Dp)%N.
Notation c := (tcells t).
Notation free := (free_node t).
Hypothesis UU : universe n U.
Hypothesis short : 162 <= n.
Hypothesis few : forall x, modest n q (A x).
Hypothesis V : valid_source src.
Hypothesis S0 : ms_static_entropy src = None.
Hypothesis Et : try_commit src (Some 0%N) = Ret (Ok t).
Hypothesis Dt : mt_depth t <= D.
Hypothesis NJ : NoDup J.
Hypothesis IJ : forall k o, In (k, o) J -> sub Dp 0 k o.
Hypothesis AJ : forall k o k2 o2, In (k, o) J -> In (k2, o2) J -> sub k o k2 o2 -> (k, o) = (k2, o2).
Hypothesis NE : NoDup Es.
Hypothesis IE : forall e, In e Es <-> (e < 2 ^ 64)%N.
Hypothesis LE : N.of_nat (length Es) = (2 ^ 64)%N.
Hypothesis LF : lists_all Fs (fun f => length f = length U).
Hypothesis NF : N.of_nat (length Fs) = (2 ^ (256 * N.of_nat (length U)))%N.
Hypothesis NC : NoDup Cs.
Hypothesis IC : forall c, In c Cs.

Definition blind_nodes : list nd := filter free J.
Definition str_at (f : list bytes32) (e : N) (x : nd) : list byte := @nstr Dp W (table U f) c e (fst x) (snd x).
Definition hash_at (f : list bytes32) (e : N) (x : nd) : bytes32 := @nh Dp W (table U f) c e (fst x) (snd x).
Definition strings (e : N) (f : list bytes32) : list (list byte) := map (str_at f e) blind_nodes.
Definition view (f cs : list bytes32) : T := make (fills free (hash_at f 0) J cs).
Definition asked_all (f : list bytes32) : list (list byte) := asked (table U f) (p_each t Es).
Definition clean (f : list bytes32) : bool := if @coll_dec (table U f) (asked_all f) then false else true.

Lemma t_good : good_tree t. Proof. exact (try_commit_good _ _ _ V Et). Qed.
Lemma t_depth : Dp <= 31. Proof. exact (gt_depth _ t_good). Qed.
Lemma t_width : (W < 2 ^ 256)%N.
Proof. apply N.pow_lt_mono_r; [reflexivity|]. assert (TD := t_depth). clear - TD. lia. Qed.
Lemma te_good e : (e < 2 ^ 64)%N -> good_tree (with_entropy t e).
Proof. intros B. exact (try_commit_good _ _ _ V (commit_entropy src 0 e t S0 Et)). Qed.
Lemma blind_in x : In x blind_nodes <-> In x J /\ free x = true.
Proof. apply filter_In. Qed.
Lemma full_hash (H : Hasher) e' k o : free (k, o) = false -> @nh Dp W H c e' k o = @nh Dp W H c 0 k o.
Proof.
  intros F. apply nh_cells. intros i L. unfold lpt. destruct (c i) as [[p m]|] eqn:E; [reflexivity|].
  assert (free (k, o) = true); [|congruence]. apply free_node_iff. exists i. split; [exact L|exact E].
Qed.

(** *** One table without collisions *)
Section Clean.
Variable f : list bytes32.
Hypothesis Cf : clean f = true.
Notation HH := (table U f).
Lemma no_coll : ~ @collision_in HH (asked_all f).
Proof. unfold clean in Cf. destruct (@coll_dec HH (asked_all f)); [discriminate|assumption]. Qed.
Lemma node_asked e k o : In e Es -> sub Dp 0 k o -> In (@nstr Dp W HH c e k o) (asked_all f).
Proof. intros I S. apply (p_each_asked HH t Es e I). exact (@tree_nodes HH (with_entropy t e) k o S). Qed.
Lemma str_same e e' k o k2 o2 : In e Es -> In e' Es -> sub Dp 0 k o -> sub Dp 0 k2 o2 ->
  @nstr Dp W HH c e k o = @nstr Dp W HH c e' k2 o2 -> k = k2 /\ o = o2.
Proof.
  intros I I' S S' E.
  apply (str_pos HH Dp W t_depth t_width c c e e' (asked_all f) no_coll) with (s := true) (s' := false); [|split| |exact S|exact S'|exact E].
  - intros [|] k1 o1 S1; apply node_asked; assumption.
  - apply (p_each_asked HH t Es e I). left. reflexivity.
  - apply (p_each_asked HH t Es e I). right. left. reflexivity.
  - intros s s' i j Si Sj El.
    assert (G : forall s, exists x, es e e' s = x /\ (x < 2 ^ 64)%N) by (intros [|]; eexists; (split; [reflexivity|apply IE; assumption])).
    destruct (G s) as (x & Ex & Bx), (G s') as (y & Ey & By). rewrite Ex, Ey in El.
    replace (cs c c s) with c in El by (destruct s; reflexivity). replace (cs c c s') with c in El by (destruct s'; reflexivity).
    exact (@leaves_det HH (with_entropy t x) (with_entropy t y) i j (te_good x Bx) (te_good y By) eq_refl eq_refl Si Sj El).
Qed.
Lemma strings_NoDup e : In e Es -> NoDup (strings e f).
Proof.
  intros I. apply NoDup_map_on; [apply NoDup_filter, NJ|]. intros [k o] [k' o'] Ik Ik' E.
  apply blind_in in Ik as [Ik _], Ik' as [Ik' _]. unfold str_at in E. cbn [fst snd] in E.
  destruct (str_same e e _ _ _ _ I I (IJ k o Ik) (IJ k' o' Ik') E) as [-> ->]. reflexivity.
Qed.
Lemma strings_apart e e' x : In e Es -> In e' Es -> In x (strings e f) -> In x (strings e' f) -> e = e'.
Proof.
  intros I I' X X'. apply in_map_iff in X as ([k o] & <- & Ik). apply in_map_iff in X' as ([k' o'] & E & Ik').
  apply blind_in in Ik as [Lk Fk], Ik' as [Lk' Fk']. symmetry in E. unfold str_at in E. cbn [fst snd] in E.
  destruct (str_same e e' _ _ _ _ I I' (IJ k o Lk) (IJ k' o' Lk') E) as [<- <-].
  apply free_node_iff in Fk as (i & Bi & Ei).
  assert (El : @lstr HH c e i = @lstr HH c e' i).
  { apply (@same_leaves HH Dp W c c e e' (asked_all f) k t_width t_depth no_coll o);
      [pose proof (sub_bounds _ _ _ _ (IJ k o Lk)) as SB; clear - SB; lia| |exact E|exact Bi].
    intros k2 o2 S. split; apply node_asked; try assumption; (eapply sub_trans; [apply IJ, Lk|exact S]). }
  unfold lstr in El. rewrite Ei in El.
  assert (Li : (i < W)%N).
  { apply node_pos. eapply sub_trans; [apply IJ, Lk|]. apply pos_node, Bi. }
  assert (W32 : (W <= 2 ^ 31)%N) by (apply N.pow_le_mono_r; pose proof t_depth; lia).
  apply (@s_entropy_inj HH) in El; [tauto|apply IE, I|apply IE, I'|lia|lia].
Qed.
Section Put.
Variables (e : N) (ds : list bytes32).
Hypothesis Ie : In e Es.
Notation H2 := (table U (puts U f (strings e f) ds)).
Lemma put_off s : ~ In s (strings e f) -> H2 s = HH s.
Proof. apply puts_other. Qed.
Lemma put_tag : H2 s_node_tag = HH s_node_tag.
Proof.
  apply put_off. intros I. apply in_map_iff in I as ([k o] & E & _). pose proof (@nstr_long HH Dp W c e k o) as L. unfold str_at in E. cbn [fst snd] in E.
  rewrite E in L. vm_compute in L. lia.
Qed.
Lemma inside k o k2 o2 : In (k, o) J -> sub k o k2 o2 -> k2 < k \/ free (k, o) = false -> ~ In (@nstr Dp W HH c e k2 o2) (strings e f).
Proof.
  intros Lk S Or I. apply in_map_iff in I as ([j u] & E & Ij). apply blind_in in Ij as [Lj Fj]. unfold str_at in E. cbn [fst snd] in E.
  assert (Sn : sub Dp 0 k2 o2) by (eapply sub_trans; [apply IJ, Lk|exact S]).
  destruct (str_same e e _ _ _ _ Ie Ie (IJ j u Lj) Sn E) as [Ek Eo]. rewrite <- Ek, <- Eo in S.
  pose proof (AJ k o j u Lk Lj S) as Q. rewrite Q in Or. injection Q as -> ->. destruct Or as [X|X]; [lia|congruence].
Qed.
Lemma str_stays k o : In (k, o) J -> @nstr Dp W H2 c e k o = @nstr Dp W HH c e k o.
Proof.
  intros Lk. apply (nstr_agree HH H2 Dp W c e (strings e f));
    [pose proof (sub_bounds _ _ _ _ (IJ k o Lk)) as SB; clear - SB; lia|exact put_tag|exact put_off|].
  intros k2 o2 S L2. apply (inside k o); [exact Lk|exact S|left; exact L2].
Qed.
Lemma strings_stay : strings e (puts U f (strings e f) ds) = strings e f.
Proof. apply map_ext_in. intros [k o] I. apply blind_in in I as [Lk _]. apply str_stays, Lk. Qed.
Lemma view_stays cs : view (puts U f (strings e f) ds) cs = view f cs.
Proof.
  unfold view. f_equal. apply fills_ext; [reflexivity|]. intros [k o] I F. unfold hash_at. cbn [fst snd].
  rewrite <- (full_hash H2 e k o F), <- (full_hash HH e k o F).
  pose proof (sub_bounds _ _ _ _ (IJ k o I)) as SB. rewrite !nh_is by lia. unfold HASH. rewrite str_stays by exact I.
  apply put_off, (inside k o); [exact I|apply sub_refl|right; exact F].
Qed.
End Put.
End Clean.

Lemma strings_in e f : incl (strings e f) U /\ length (strings e f) = length blind_nodes.
Proof.
  split; [|apply map_length]. intros x I. apply in_map_iff in I as ([k o] & <- & _). apply (proj2 UU).
  pose proof (@nstr_short (table U f) Dp W c e k o). unfold str_at. cbn [fst snd]. lia.
Qed.
Lemma view_real e f : view f (map (table U f) (strings e f)) = make (map (hash_at f e) J).
Proof.
  unfold view. f_equal. unfold strings, blind_nodes. rewrite map_map. cbv beta. rewrite fills_map.
  apply map_ext_in. intros [k o] I. pose proof (sub_bounds _ _ _ _ (IJ k o I)) as SB. unfold str_at, hash_at. cbn [fst snd].
  destruct (free (k, o)) eqn:F; [rewrite nh_is by lia; reflexivity|]. symmetry. apply full_hash, F.
Qed.
Definition missed : N := N.of_nat (length (filter (fun f => negb (clean f)) Fs)).
Notation work := (2 * 2 ^ N.of_nat D + 2)%N.
Lemma missed_few : (missed * 2 ^ 257 <= (2 ^ 64 * work) * (2 ^ 64 * work) * 2 ^ (256 * N.of_nat (length U)))%N.
Proof.
  set (Q := length Es * (2 * 2 ^ Dp + 2)).
  assert (QW : (N.of_nat Q <= 2 ^ 64 * work)%N).
  { unfold Q. rewrite Nat2N.inj_mul, LE. apply N.mul_le_mono_l. rewrite Nat2N.inj_add, Nat2N.inj_mul, Nat2N.inj_pow.
    change (N.of_nat 2) with 2%N. apply N.add_le_mono_r, N.mul_le_mono_l, N.pow_le_mono_r; [discriminate|]. pose proof Dt as DT. clear - DT. lia. }
  eapply N.le_trans; [apply (c92_birthday n U _ (p_each t Es) Q UU)|].
  - apply p_each_modest, short.
  - apply NoDup_filter, LF.
  - intros f I. apply filter_In in I as [I B]. split; [apply LF, I|]. unfold clean in B.
    destruct (@coll_dec (table U f) (asked_all f)) as [Co|]; [exact Co|discriminate].
  - apply N.mul_le_mono_r. apply N.mul_le_mono; [exact QW|]. eapply N.le_trans; [|exact QW]. clearbody Q. clear. lia.
Qed.
Lemma near k : k = sum (fun e => sum (fun f => ind (exec (table U f) (A (make (map (hash_at f e) J))))) Fs) Es ->
  let Ct := tuples Cs (length blind_nodes) in
  let ideal := sum (fun f => sum (fun ds => answer U A view ds f f) Ct) Fs in
  let err := (N.of_nat (length Ct) * (N.of_nat q * N.of_nat (length Fs) + 2 ^ 65 * missed))%N in
  (k * N.of_nat (length Ct) <= 2 ^ 64 * ideal + err /\ 2 ^ 64 * ideal <= k * N.of_nat (length Ct) + err)%N.
Proof.
  intros C Ct ideal err.
  assert (C' : k = sum (fun e => sum (fun f => answer U A view (map (table U f) (strings e f)) f f) Fs) Es).
  { rewrite C. apply sum_ext. intros e _. apply sum_ext. intros f _. unfold answer. rewrite view_real. reflexivity. }
  rewrite C'.
  pose proof (touches_total U (length blind_nodes) A Fs Cs view clean LF n q Es strings few NE
    (fun f e e' x L G I I' X X' => strings_apart f G e e' x I I' X X')) as TT.
  fold Ct in TT. fold missed in TT. rewrite LE in TT.
  assert (O : forall e, In e Es -> _ /\ _) by (intros e I;
    exact (one_view U (length blind_nodes) A Fs Cs view clean (proj1 UU) LF NC IC (strings e) (fun f _ => strings_in e f)
      (fun f _ G => strings_NoDup f G e I) (fun f ds _ G => strings_stay f G e ds I) (fun f ds d _ G => view_stays f G e ds I d))).
  fold Ct in O. fold missed in O. fold ideal in O.
  set (R := sum (fun e => sum (fun f => answer U A view (map (table U f) (strings e f)) f f) Fs) Es).
  set (TB := sum (fun e => sum (fun f => sum (fun ds => ind (touches U A view (strings e f) ds f)) Ct) Fs) Es) in TT.
  assert (M : (sum (fun _ : N => missed * N.of_nat (length Ct)) Es = 2 ^ 64 * (missed * N.of_nat (length Ct)))%N) by (rewrite sum_same, LE; reflexivity).
  assert (Id : (sum (fun _ : N => ideal) Es = 2 ^ 64 * ideal)%N) by (rewrite sum_same, LE; reflexivity).
  assert (P1 : (R * N.of_nat (length Ct) <= 2 ^ 64 * ideal + (TB + 2 ^ 64 * (missed * N.of_nat (length Ct))))%N).
  { rewrite <- M, <- Id. unfold R, TB. rewrite <- sum_mul, <- !sum_add. apply sum_le. intros e I. apply (O e I). }
  assert (P2 : (2 ^ 64 * ideal <= R * N.of_nat (length Ct) + (TB + 2 ^ 64 * (missed * N.of_nat (length Ct))))%N).
  { rewrite <- M, <- Id. unfold R, TB. rewrite <- sum_mul, <- !sum_add. apply sum_le. intros e I. apply (O e I). }
  assert (K : (TB + 2 ^ 64 * (missed * N.of_nat (length Ct)) <= err)%N).
  { unfold err. change (2 ^ 65)%N with (2 ^ 64 + 2 ^ 64)%N. set (x := (2 ^ 64)%N) in *. set (y := N.of_nat (length Ct)) in *. set (z := missed) in *.
    clearbody x y z TB. clear - TT. nia. }
  set (x := (2 ^ 64 * ideal)%N) in *. set (y := (R * N.of_nat (length Ct))%N) in *. clearbody x y TB err. clear - P1 P2 K. lia.
Qed.
End One.

(** ** Two trees which agree in the nodes without empty slots *)
Lemma near_two {T} n U q D (A : T -> prog bool) src1 src2 t1 t2 J (make : list bytes32 -> T) (Es : list N) (Fs : list (list bytes32)) (Cs : list bytes32) k1 k2 :
  universe n U -> 162 <= n -> (forall x, modest n q (A x)) -> valid_source src1 -> valid_source src2 ->
  ms_static_entropy src1 = None -> ms_static_entropy src2 = None ->
  try_commit src1 (Some 0%N) = Ret (Ok t1) -> try_commit src2 (Some 0%N) = Ret (Ok t2) -> mt_depth t1 = mt_depth t2 -> mt_depth t1 <= D ->
  NoDup J -> (forall k o, In (k, o) J -> sub (mt_depth t1) 0 k o) ->
  (forall k o k2 o2, In (k, o) J -> In (k2, o2) J -> sub k o k2 o2 -> (k, o) = (k2, o2)) ->
  NoDup Es -> (forall e, In e Es <-> (e < 2 ^ 64)%N) -> N.of_nat (length Es) = (2 ^ 64)%N ->
  lists_all Fs (fun f => length f = length U) -> N.of_nat (length Fs) = (2 ^ (256 * N.of_nat (length U)))%N ->
  NoDup Cs -> (forall c, In c Cs) -> N.of_nat (length Cs) = (2 ^ 256)%N ->
  (forall k o, In (k, o) J -> (free_node t1 (k, o) = true /\ free_node t2 (k, o) = true) \/
     forall i, (o <= i < o + 2 ^ N.of_nat k)%N -> tcells t1 i = tcells t2 i) ->
  k1 = sum (fun e => sum (fun f => ind (exec (table U f) (A (make (map (hash_at U t1 f e) J))))) Fs) Es ->
  k2 = sum (fun e => sum (fun f => ind (exec (table U f) (A (make (map (hash_at U t2 f e) J))))) Fs) Es ->
  (k1 * 2 ^ 63 <= k2 * 2 ^ 63 + (N.of_nat q * 2 ^ 64 + (2 * 2 ^ N.of_nat D + 2) ^ 2) * 2 ^ (256 * N.of_nat (length U)))%N.
Proof.
  intros UU S F V1 V2 S1 S2 E1 E2 QD DD NJ IJ AJ NE IE LE LF NF NC IC LC SC C1 C2.
  assert (FR : forall x, In x J -> free_node t1 x = free_node t2 x).
  { intros [k o] I. destruct (SC k o I) as [[-> ->]|X]; [reflexivity|]. apply Bool.eq_true_iff_eq. rewrite !free_node_iff.
    split; intros (i & B & N); exists i; (split; [exact B|]); rewrite <- N; [symmetry|]; apply X, B. }
  assert (EB : blind_nodes t1 J = blind_nodes t2 J) by (apply filter_ext_in; exact FR).
  assert (IJ2 : forall k o, In (k, o) J -> sub (mt_depth t2) 0 k o) by (rewrite <- QD; exact IJ).
  destruct (near n U q D A src1 t1 J make Es Fs Cs UU S F V1 S1 E1 DD NJ IJ AJ NE IE LE LF NF NC IC k1 C1) as [N1 _].
  destruct (near n U q D A src2 t2 J make Es Fs Cs UU S F V2 S2 E2 ltac:(lia) NJ IJ2 AJ NE IE LE LF NF NC IC k2 C2) as [_ N2].
  cbv zeta in N1, N2. rewrite <- EB in N2.
  assert (EV : forall f cs, view U t1 J make f cs = view U t2 J make f cs).
  { intros f cs. unfold view. f_equal. apply fills_ext; [exact FR|].
    intros [k o] I Fk. unfold hash_at. cbn [fst snd]. rewrite QD. apply nh_cells. intros i L.
    destruct (SC k o I) as [[X _]|X]; [congruence|]. unfold lpt. rewrite (X i L). reflexivity. }
  set (Ct := tuples Cs (length (blind_nodes t1 J))) in *.
  assert (ES : sum (fun f => sum (fun ds => answer U A (view U t1 J make) ds f f) Ct) Fs = sum (fun f => sum (fun ds => answer U A (view U t2 J make) ds f f) Ct) Fs).
  { apply sum_ext; intros f _. apply sum_ext; intros ds _. unfold answer. rewrite EV. reflexivity. }
  rewrite ES in N1. set (Y := sum _ Fs) in *.
  pose proof (missed_few n U D t1 Es Fs UU S DD LE LF) as M1. pose proof (missed_few n U D t2 Es Fs UU S ltac:(lia) LE LF) as M2.
  set (x1 := missed U t1 Es Fs) in *. set (x2 := missed U t2 Es Fs) in *. rewrite NF in *. set (P2 := (2 ^ (256 * N.of_nat (length U)))%N) in *.
  assert (LP : (0 < N.of_nat (length Ct))%N).
  { unfold Ct. rewrite tuples_length, LC. apply N.neq_0_lt_0, N.pow_nonzero. discriminate. }
  set (P := N.of_nat (length Ct)) in *. rewrite N.pow_2_r. set (w := (2 * 2 ^ N.of_nat D + 2)%N) in *.
  assert (Z : (k1 <= k2 + (2 * (N.of_nat q * P2) + 2 ^ 65 * x1 + 2 ^ 65 * x2))%N).
  { clearbody P Y x1 x2 P2. clear - N1 N2 LP. set (a := (2 ^ 64 * Y)%N) in *. set (b := (2 ^ 65)%N) in *. clearbody a b.
    apply (N.mul_le_mono_pos_r _ _ P LP). nia. }
  assert (B : forall x, (x * 2 ^ 257 <= 2 ^ 64 * w * (2 ^ 64 * w) * P2)%N -> (2 ^ 63 * (2 ^ 65 * x) * 2 <= w * w * P2)%N).
  { intros x M. apply (N.mul_le_mono_pos_l _ _ (2 ^ 128)); [reflexivity|]. replace (2 ^ 128 * (2 ^ 63 * (2 ^ 65 * x) * 2))%N with (x * 2 ^ 257)%N
      by (change (2 ^ 257)%N with (2 ^ 128 * 2 ^ 63 * 2 ^ 65 * 2)%N; ring).
    eapply N.le_trans; [exact M|]. apply N.eq_le_incl. change (2 ^ 128)%N with (2 ^ 64 * 2 ^ 64)%N. ring. }
  pose proof (B x1 M1) as B1. pose proof (B x2 M2) as B2.
  change (2 ^ 64)%N with (2 ^ 63 * 2)%N. clear - Z B1 B2. clearbody P2 w x1 x2. set (a := (2 ^ 63)%N) in *. set (b := (2 ^ 65)%N) in *.
  set (W := (w * w * P2)%N) in *. replace ((N.of_nat q * (a * 2) + w * w) * P2)%N with (N.of_nat q * P2 * (a * 2) + W)%N by (unfold W; ring).
  clearbody a b W. nia.
Qed.

(** ** Blocks *)
Fixpoint rebuild (c : cells) (g : bytes32 -> bool) (k : nat) (o : N) (hs : list bytes32) : ptree * list bytes32 :=
  if vis c g k o then
    match k with
    | O => (match c o with Some (p, m) => PLeaf p m | None => PConc (b32_fill x00) end, hs)
    | S k' => let '(l, hs1) := rebuild c g k' o hs in let '(r, hs2) := rebuild c g k' (o + 2 ^ N.of_nat k')%N hs1 in (PBr l r, hs2)
    end
  else (PConc (hd (b32_fill x00) hs), tl hs).
Lemma rebuild_is {H : Hasher} D W c g e k : forall o rest, k <= D ->
  rebuild c g k o (map (fun x => nh D W c e (fst x) (snd x)) (tops c g k o) ++ rest) = (prestrict g W (D - k) (full_tree k o (lpt c e)), rest).
Proof.
  induction k as [|k IH]; intros o rest KD; cbn [rebuild tops full_tree].
  - destruct (vis c g 0 o) eqn:Vi; cbn [map app hd tl fst snd].
    + cbn [vis] in Vi. unfold lpt. destruct (c o) as [[p m]|]; [|discriminate]. cbn [prestrict]. rewrite Vi. reflexivity.
    + f_equal. cbn [vis] in Vi. unfold nh. cbn [full_tree]. unfold lpt. destruct (c o) as [[p m]|]; cbn [prestrict]; [rewrite Vi|]; reflexivity.
  - destruct (vis c g (S k) o) eqn:Vi.
    + rewrite map_app, <- app_assoc, IH, IH by lia. cbn [prestrict]. pose proof (vis_leaves c e g (S k) o) as VL. cbn [full_tree] in VL. rewrite VL, Vi.
      replace (S (D - S k)) with (D - k) by lia. reflexivity.
    + cbn [map app hd tl fst snd]. f_equal. cbn [prestrict]. pose proof (vis_leaves c e g (S k) o) as VL. cbn [full_tree] in VL. rewrite VL, Vi.
      reflexivity.
Qed.
Lemma vis_spec c g k : forall o, vis c g k o = true <-> exists i p m, (o <= i < o + 2 ^ N.of_nat k)%N /\ c i = Some (p, m) /\ g p = true.
Proof.
  induction k as [|k IH]; intros o; cbn [vis].
  - change (2 ^ N.of_nat 0)%N with 1%N. split.
    + destruct (c o) as [[p m]|] eqn:E; [|discriminate]. intros G. exists o, p, m. split; [lia|auto].
    + intros (i & p & m & L & E & G). replace i with o in E by lia. rewrite E. exact G.
  - rewrite orb_true_iff, !IH, Nat2N.inj_succ, N.pow_succ_r'. split.
    + intros [(i & p & m & L & X)|(i & p & m & L & X)]; exists i, p, m; (split; [lia|exact X]).
    + intros (i & p & m & L & X). destruct (N.lt_ge_cases i (o + 2 ^ N.of_nat k)%N); [left|right]; exists i, p, m; (split; [lia|exact X]).
Qed.
Lemma tops_NoDup c g k : forall o, NoDup (tops c g k o).
Proof.
  induction k as [|k IH]; intros o; cbn [tops].
  - destruct (vis c g 0 o); repeat constructor; intros [].
  - destruct (vis c g (S k) o); [|repeat constructor; intros []]. apply NoDup_app_intro; [apply IH|apply IH|].
    intros [k2 o2] I1 I2. apply tops_sub in I1 as [I1 _], I2 as [I2 _]. apply sub_bounds in I1, I2. pose proof (pow_pos k2). lia.
Qed.
(** Their numbers, and what is above them *)
Lemma sub_align k o k2 o2 : sub k o k2 o2 -> forall a, o = (a * 2 ^ N.of_nat k)%N -> exists a2, o2 = (a2 * 2 ^ N.of_nat k2)%N /\ (a * 2 ^ N.of_nat (k - k2) <= a2 < (a + 1) * 2 ^ N.of_nat (k - k2))%N.
Proof.
  induction 1 as [k o|k o k2 o2 S IH|k o k2 o2 S IH]; intros a E.
  - exists a. rewrite Nat.sub_diag. cbn. split; [exact E|lia].
  - pose proof (sub_bounds _ _ _ _ S). rewrite Nat2N.inj_succ, N.pow_succ_r' in E.
    destruct (IH (2 * a)%N) as (a2 & E2 & B); [lia|]. exists a2. split; [exact E2|]. replace (Datatypes.S k - k2) with (Datatypes.S (k - k2)) by lia.
    rewrite Nat2N.inj_succ, N.pow_succ_r'. set (P := (2 ^ N.of_nat (k - k2))%N) in *. assert (0 < P)%N by apply pow_pos. clearbody P. nia.
  - pose proof (sub_bounds _ _ _ _ S). rewrite Nat2N.inj_succ, N.pow_succ_r' in E.
    destruct (IH (2 * a + 1)%N) as (a2 & E2 & B); [lia|]. exists a2. split; [exact E2|]. replace (Datatypes.S k - k2) with (Datatypes.S (k - k2)) by lia.
    rewrite Nat2N.inj_succ, N.pow_succ_r'. set (P := (2 ^ N.of_nat (k - k2))%N) in *. assert (0 < P)%N by apply pow_pos. clearbody P. nia.
Qed.
Lemma tops_parent c g k : forall o k2 o2, In (k2, o2) (tops c g k o) -> (k2 = k /\ o2 = o) \/
  exists o3, sub k o (S k2) o3 /\ vis c g (S k2) o3 = true /\ (o2 = o3 \/ o2 = (o3 + 2 ^ N.of_nat k2)%N).
Proof.
  induction k as [|k IH]; intros o k2 o2 I; cbn [tops] in I.
  - destruct (vis c g 0 o); [destruct I|]. destruct I as [Q|[]]. injection Q as <- <-. left. auto.
  - destruct (vis c g (S k) o) eqn:Vi; [|destruct I as [Q|[]]; injection Q as <- <-; left; auto].
    right. apply in_app_or in I as [I|I]; apply IH in I as [[-> ->]|(o3 & S3 & V3 & X)].
    + exists o. split; [apply sub_refl|auto].
    + exists o3. split; [apply sub_l, S3|auto].
    + exists o. split; [apply sub_refl|auto].
    + exists o3. split; [apply sub_r, S3|auto].
Qed.
Lemma within_range k a i : within k a i <-> (a * 2 ^ N.of_nat k <= i < a * 2 ^ N.of_nat k + 2 ^ N.of_nat k)%N.
Proof.
  unfold within. set (P := (2 ^ N.of_nat k)%N). assert (Pp : (0 < P)%N) by apply pow_pos. clearbody P.
  pose proof (N.div_mod i P ltac:(lia)) as DM. pose proof (N.mod_lt i P ltac:(lia)) as ML. set (d := (i / P)%N) in *. set (r := (i mod P)%N) in *. split.
  - intros <-. clearbody d r. subst i. rewrite (N.mul_comm d P). lia.
  - intros L. unfold d. symmetry. apply (N.div_unique i P a (i - a * P)%N); nia.
Qed.
Lemma shows_vis t ids k a : shows t ids k a <-> vis (tcells t) (mem ids) k (a * 2 ^ N.of_nat k) = true.
Proof.
  rewrite vis_spec. unfold shows, slot_of, tcells. split; intros (i & p & m & X & Y & Z); exists i, p, m;
    (split; [apply within_range, X|split; [exact Y|apply mem_In, Z]]).
Qed.
Lemma top_concealed t ids k o : In (k, o) (tops (tcells t) (mem ids) (mt_depth t) 0) ->
  exists a, o = (a * 2 ^ N.of_nat k)%N /\ concealed_top t ids k a.
Proof.
  intros I. pose proof (tops_sub _ _ _ _ _ _ I) as [S F]. destruct (sub_align _ _ _ _ S 0%N eq_refl) as (a & E & B).
  pose proof (sub_bounds _ _ _ _ S) as [L _]. exists a. split; [exact E|]. split; [exact L|split; [lia|split]].
  - rewrite shows_vis, <- E. congruence.
  - apply tops_parent in I as [[-> _]|(o3 & S3 & V3 & X)]; [left; reflexivity|right]. rewrite shows_vis.
    destruct (sub_align _ _ _ _ S3 0%N eq_refl) as (a3 & E3 & _). rewrite Nat2N.inj_succ, N.pow_succ_r' in *. set (P := (2 ^ N.of_nat k)%N) in *.
    assert (Pp : (0 < P)%N) by apply pow_pos. clearbody P.
    replace (a / 2)%N with a3; [rewrite <- E3; exact V3|].
    apply (N.div_unique a 2 a3 (a - 2 * a3)%N); destruct X as [X|X]; nia.
Qed.

Lemma block_counts U src t ids A Es Fs :
  valid_source src -> ms_static_entropy src = None -> try_commit src (Some 0%N) = Ret (Ok t) ->
  (forall p, In p ids -> exists m, In (p, m) (ms_messages src)) ->
  NoDup Es -> (forall e, In e Es <-> (e < 2 ^ 64)%N) -> lists_all Fs (fun f => length f = length U) ->
  let J := tops (tcells t) (mem ids) (mt_depth t) 0 in
  let make hs := MBlock (ms_method src) (mt_depth t) (mt_cofactor t) (flatten 0 (fst (rebuild (tcells t) (mem ids) (mt_depth t) 0 hs))) None in
  forall ef, guesses_block U src ids A ef <-> In ef (list_prod Es Fs) /\
    exec (table U (snd ef)) (A (make (map (hash_at U t (snd ef) (fst ef)) J))) = true.
Proof.
  intros V S0 Et SH NE IE LF J make [e f]. cbn [fst snd]. rewrite in_prod_iff, IE, (proj2 LF f).
  assert (CE : forall e, (e < 2 ^ 64)%N -> exists n', @conceal_except (table U f) Debug (@block_of_tree (table U f) (with_entropy t e)) ids =
    Ret (make (map (hash_at U t f e) J), Ok n')).
  { intros x B. eexists. pose proof (commit_entropy src 0 x t S0 Et) as E. pose proof (try_commit_good _ _ _ V E) as G.
    destruct (@block_of_tree_wf (table U f) _ G) as [B1 [_ [B2 B3]]].
    rewrite (@conceal_except_ok (table U f) Debug _ _ ids B1 B2 (pwf_loose_of _ _ _ B3)).
    - cbn [block_of_tree mb_method mb_depth mb_cofactor with_entropy mt_depth mt_cofactor mt_method]. unfold make.
      pose proof (@rebuild_is (table U f) (mt_depth t) (2 ^ N.of_nat (mt_depth t)) (tcells t) (mem ids) x (mt_depth t) 0 [] (le_n _)) as R.
      rewrite app_nil_r, Nat.sub_diag in R. fold J in R. unfold hash_at. rewrite R. cbn [fst].
      pose proof (try_commit_spec src (Some x) (proj1 V) (proj1 (proj2 V))) as T. cbv zeta in T. rewrite E in T. destruct T as [_ [_ [TM _]]].
      cbn [with_entropy mt_method] in TM. rewrite TM. reflexivity.
    - intros p I. destruct (SH p I) as [m J1]. apply in_map_iff. exists (p, m). split; [reflexivity|].
      apply tree_full_pleaves; [exact G|]. rewrite (messages_kept src _ _ V E). exact J1. }
  unfold guesses_block. split.
  - intros (B & L & t' & b & n & E & C & R). split; [auto|]. rewrite (commit_entropy src 0 e t S0 Et) in E. injection E as <-.
    destruct (CE e B) as [n' Q]. rewrite Q in C. injection C as <- _. exact R.
  - intros [[B L] R]. split; [exact B|split; [exact L|]]. destruct (CE e B) as [n' Q].
    exists (with_entropy t e). eexists _, n'. split; [exact (commit_entropy src 0 e t S0 Et)|split; [exact Q|exact R]].
Qed.

Lemma block_sum U src t ids A Es Fs k :
  valid_source src -> ms_static_entropy src = None -> try_commit src (Some 0%N) = Ret (Ok t) ->
  (forall p, In p ids -> exists m, In (p, m) (ms_messages src)) ->
  NoDup Es -> (forall e, In e Es <-> (e < 2 ^ 64)%N) -> lists_all Fs (fun f => length f = length U) ->
  let J := tops (tcells t) (mem ids) (mt_depth t) 0 in
  let make hs := MBlock (ms_method src) (mt_depth t) (mt_cofactor t) (flatten 0 (fst (rebuild (tcells t) (mem ids) (mt_depth t) 0 hs))) None in
  counts (guesses_block U src ids A) k ->
  k = sum (fun e => sum (fun f => ind (exec (table U f) (A (make (map (hash_at U t f e) J))))) Fs) Es.
Proof.
  intros V S0 Et SH NE IE LF J make C.
  rewrite (counts_ind (guesses_block U src ids A)
    (fun ef => exec (table U (snd ef)) (A (make (map (hash_at U t (snd ef) (fst ef)) J)))) (list_prod Es Fs) k).
  - rewrite sum_prod. reflexivity.
  - apply NoDup_prod; [exact NE|apply LF].
  - exact (block_counts U src t ids A Es Fs V S0 Et SH NE IE LF).
  - exact C.
Qed.

(** Two trees with the same shown messages *)
Section Same.
Variables (c c' : cells) (g : bytes32 -> bool).
Hypothesis agree : forall i,
  match c i with Some (p, m) => if g p then Some (p, m) else None | None => None end =
  match c' i with Some (p, m) => if g p then Some (p, m) else None | None => None end.
Lemma vis_same k : forall o, vis c g k o = vis c' g k o.
Proof.
  induction k as [|k IH]; intros o; cbn [vis]; [|rewrite !IH; reflexivity].
  pose proof (agree o) as Q. destruct (c o) as [[p m]|], (c' o) as [[p' m']|]; try reflexivity;
    repeat match goal with |- context [g ?x] => destruct (g x) end; congruence.
Qed.
Lemma tops_same k : forall o, tops c g k o = tops c' g k o.
Proof. induction k as [|k IH]; intros o; cbn [tops]; rewrite vis_same; [reflexivity|]. rewrite !IH. reflexivity. Qed.
Lemma rebuild_same k : forall o hs, rebuild c g k o hs = rebuild c' g k o hs.
Proof.
  induction k as [|k IH]; intros o hs; cbn [rebuild]; rewrite <- vis_same.
  - destruct (vis c g 0 o) eqn:Vi; [|reflexivity]. cbn [vis] in Vi. pose proof (agree o) as Q.
    destruct (c o) as [[p m]|]; [|discriminate]. rewrite Vi in Q. destruct (c' o) as [[p' m']|]; [|discriminate].
    destruct (g p'); [|discriminate]. injection Q as <- <-. reflexivity.
  - rewrite IH. destruct (rebuild c' g k o hs) as [l hs1]. rewrite IH. reflexivity.
Qed.
End Same.
Lemma shown_agree src1 src2 r1 r2 t1 t2 ids : valid_source src1 -> valid_source src2 ->
  try_commit src1 r1 = Ret (Ok t1) -> try_commit src2 r2 = Ret (Ok t2) ->
  mt_depth t1 = mt_depth t2 -> mt_cofactor t1 = mt_cofactor t2 ->
  (forall p, In p ids -> exists m, In (p, m) (ms_messages src1) /\ In (p, m) (ms_messages src2)) ->
  forall i,
  match tcells t1 i with Some (p, m) => if mem ids p then Some (p, m) else None | None => None end =
  match tcells t2 i with Some (p, m) => if mem ids p then Some (p, m) else None | None => None end.
Proof.
  intros V V' E E' QD QC SH. pose proof (try_commit_good _ _ _ V E) as G. pose proof (try_commit_good _ _ _ V' E') as G'.
  pose proof (messages_kept _ _ _ V E) as Ms. pose proof (messages_kept _ _ _ V' E') as Ms'.
  assert (A : forall i p m, tcells t1 i = Some (p, m) -> mem ids p = true -> tcells t2 i = Some (p, m)).
  { intros i p m Q F. apply mem_In in F. destruct (SH p F) as (m0 & J1 & J2). rewrite <- Ms in J1. rewrite <- Ms' in J2.
    apply (cell_pos _ _ _ _ G) in Q as [I ->]. apply (pos_cell _ _ _ G) in I, J1. assert (m0 = m) by congruence. subst m0.
    apply (pos_cell _ _ _ G') in J2. rewrite QC, QD. exact J2. }
  assert (B : forall i p m, tcells t2 i = Some (p, m) -> mem ids p = true -> tcells t1 i = Some (p, m)).
  { intros i p m Q F. apply mem_In in F. destruct (SH p F) as (m0 & J1 & J2). rewrite <- Ms in J1. rewrite <- Ms' in J2.
    apply (cell_pos _ _ _ _ G') in Q as [I ->]. apply (pos_cell _ _ _ G') in I, J2. assert (m0 = m) by congruence. subst m0.
    apply (pos_cell _ _ _ G) in J1. rewrite <- QC, <- QD. exact J1. }
  intros i. destruct (tcells t1 i) as [[p m]|] eqn:Q, (tcells t2 i) as [[p' m']|] eqn:Q'; try reflexivity.
  - destruct (mem ids p) eqn:F; [rewrite (A _ _ _ Q F) in Q'; injection Q' as <- <-; rewrite F; reflexivity|].
    destruct (mem ids p') eqn:F'; [|reflexivity]. rewrite (B _ _ _ Q' F') in Q. congruence.
  - destruct (mem ids p) eqn:F; [|reflexivity]. rewrite (A _ _ _ Q F) in Q'. discriminate.
  - destruct (mem ids p') eqn:F'; [|reflexivity]. rewrite (B _ _ _ Q' F') in Q. discriminate.
Qed.

Lemma c95_hidden : forall n U q D (A : merkle_block -> prog bool) src1 src2 t1 t2 ids k1 k2
  (strings : universe n U) (short : 162 <= n) (few : forall b, modest n q (A b))
  (valid1 : valid_source src1) (valid2 : valid_source src2)
  (drawn1 : ms_static_entropy src1 = None) (drawn2 : ms_static_entropy src2 = None)
  (made1 : try_commit src1 (Some 0%N) = Ret (Ok t1)) (made2 : try_commit src2 (Some 0%N) = Ret (Ok t2))
  (same_method : ms_method src1 = ms_method src2) (same_depth : mt_depth t1 = mt_depth t2)
  (same_cofactor : mt_cofactor t1 = mt_cofactor t2) (depth : mt_depth t1 <= D)
  (shared : forall p, In p ids -> exists m, In (p, m) (ms_messages src1) /\ In (p, m) (ms_messages src2))
  (covered : screened_block t1 t2 ids)
  (yes1 : counts (guesses_block U src1 ids A) k1) (yes2 : counts (guesses_block U src2 ids A) k2),
  (k1 * 2 ^ 63 <= k2 * 2 ^ 63 + (N.of_nat q * 2 ^ 64 + (2 * 2 ^ N.of_nat D + 2) ^ 2) * 2 ^ (256 * N.of_nat (length U)))%N.
Proof.
  intros n U q D A src1 src2 t1 t2 ids k1 k2 UU S F V1 V2 S1 S2 E1 E2 QM QD QC DD SH SC C1 C2.
  destruct (below (2 ^ 64)) as (Es & NE & IE & LE). destruct (c86_all (length U)) as (Fs & LF & NF).
  destruct all_ids as (Cs & NC & IC & LC).
  pose proof (shown_agree _ _ _ _ _ _ ids V1 V2 E1 E2 QD QC SH) as AG.
  pose proof (try_commit_good _ _ _ V1 E1) as G.
  assert (HD : mt_depth t1 <= 31) by exact (gt_depth _ G).
  assert (HW : (2 ^ N.of_nat (mt_depth t1) < 2 ^ 256)%N) by (apply N.pow_lt_mono_r; [reflexivity|]; clear - HD; lia).
  apply (block_sum U src1 t1 ids A Es Fs) in C1; try assumption; [|intros p I; destruct (SH p I) as (m & X & _); exists m; exact X].
  apply (block_sum U src2 t2 ids A Es Fs) in C2; try assumption; [|intros p I; destruct (SH p I) as (m & _ & X); exists m; exact X].
  rewrite <- QM, <- QD, <- QC in C2. rewrite <- (tops_same _ _ _ AG) in C2.
  apply (near_two n U q D A src1 src2 t1 t2 (tops (tcells t1) (mem ids) (mt_depth t1) 0)
    (fun hs => MBlock (ms_method src1) (mt_depth t1) (mt_cofactor t1) (flatten 0 (fst (rebuild (tcells t1) (mem ids) (mt_depth t1) 0 hs))) None)
    Es Fs Cs); try assumption.
  - apply tops_NoDup.
  - intros k o I. apply tops_sub in I. tauto.
  - intros k o k3 o3 I I3 SB. apply sub_bounds in SB as (L1 & L2 & L3).
    assert (X : (k = k3 /\ o = o3) \/ (o + 2 ^ N.of_nat k <= o3)%N \/ (o3 + 2 ^ N.of_nat k3 <= o)%N) by (eapply tops_disjoint; eassumption). pose proof (pow_pos k3). destruct X as [[-> ->]|X]; [reflexivity|lia].
  - intros k o I. destruct (top_concealed t1 ids k o I) as (a & -> & X).
    destruct (SC k a X) as [(i1 & i2 & [B1 N1] & [B2 N2])|Y].
    + left. apply within_range in B1, B2. split; apply free_node_iff; [exists i1|exists i2]; split; assumption.
    + right. intros i B. apply Y, within_range, B.
  - rewrite C2. apply sum_ext. intros e _. apply sum_ext. intros f _. rewrite <- (rebuild_same _ _ _ AG). reflexivity.
Qed.
Lemma c95_meaning : forall n U (A : merkle_block -> prog bool) src t ids (strings : universe n U) (valid : valid_source src)
  (drawn : ms_static_entropy src = None) (made : try_commit src (Some 0%N) = Ret (Ok t))
  (own : forall p, In p ids -> exists m, In (p, m) (ms_messages src)),
  (exists k, counts (guesses_block U src ids A) k) /\
  counts (guesses_block U src ids (fun _ => Done true)) (2 ^ 64 * 2 ^ (256 * N.of_nat (length U))).
Proof.
  intros n U A src t ids UU V S0 Et SH. destruct (below (2 ^ 64)) as (Es & NE & IE & LE). destruct (c86_all (length U)) as (Fs & LF & NF).
  pose proof (fun B => block_counts U src t ids B Es Fs V S0 Et SH NE IE LF) as B. cbv zeta in B. split.
  - eexists. apply (counts_exist _ _ (list_prod Es Fs) (NoDup_prod Es Fs NE (proj1 LF)) (B A)).
  - exists (list_prod Es Fs). split; [apply NoDup_prod; [exact NE|apply LF]|split].
    + intros ef. rewrite (B (fun _ => Done true)). cbn [exec]. tauto.
    + rewrite prod_length, Nat2N.inj_mul, LE, NF. reflexivity.
Qed.
(** 2^40 questions against trees of depth at most 16: the chances differ by less than 2^-22. *)
Lemma c95_numbers : forall n U q (A : merkle_block -> prog bool) src1 src2 t1 t2 ids k1 k2 all
  (strings : universe n U) (short : 162 <= n) (few : forall b, modest n q (A b)) (work : (N.of_nat q <= 2 ^ 40)%N)
  (valid1 : valid_source src1) (valid2 : valid_source src2)
  (drawn1 : ms_static_entropy src1 = None) (drawn2 : ms_static_entropy src2 = None)
  (made1 : try_commit src1 (Some 0%N) = Ret (Ok t1)) (made2 : try_commit src2 (Some 0%N) = Ret (Ok t2))
  (same_method : ms_method src1 = ms_method src2) (same_depth : mt_depth t1 = mt_depth t2)
  (same_cofactor : mt_cofactor t1 = mt_cofactor t2) (depth : mt_depth t1 <= 16)
  (shared : forall p, In p ids -> exists m, In (p, m) (ms_messages src1) /\ In (p, m) (ms_messages src2))
  (covered : screened_block t1 t2 ids)
  (yes1 : counts (guesses_block U src1 ids A) k1) (yes2 : counts (guesses_block U src2 ids A) k2)
  (total : counts (guesses_block U src1 ids (fun _ => Done true)) all),
  (k1 * 2 ^ 22 <= k2 * 2 ^ 22 + all)%N.
Proof.
  intros n U q A src1 src2 t1 t2 ids k1 k2 all UU S F W V1 V2 S1 S2 E1 E2 QM QD QC DD SH SC C1 C2 CT.
  pose proof (c95_hidden n U q 16 A src1 src2 t1 t2 ids k1 k2 UU S F V1 V2 S1 S2 E1 E2 QM QD QC DD SH SC C1 C2) as X.
  destruct (c95_meaning n U A src1 t1 ids UU V1 S1 E1) as (_ & M); [intros p I; destruct (SH p I) as (m & Y & _); exists m; exact Y|].
  assert (T : all = (2 ^ 64 * 2 ^ (256 * N.of_nat (length U)))%N).
  { destruct CT as (La & NLa & ILa & <-), M as (Lb & NLb & ILb & <-). f_equal. apply Nat.le_antisymm; apply NoDup_incl_length; try assumption;
      intros x I; [apply ILb, ILa, I|apply ILa, ILb, I]. }
  rewrite T. set (P := (2 ^ (256 * N.of_nat (length U)))%N) in *. clearbody P. clear - X W.
  change ((2 * 2 ^ N.of_nat 16 + 2) ^ 2)%N with 17180393476%N in X.
  assert (Y : (N.of_nat q * 2 ^ 64 + 17180393476 <= 2 ^ 105)%N).
  { eapply N.le_trans; [apply N.add_le_mono_r, N.mul_le_mono_r, W|]. vm_compute. discriminate. }
  assert (Z : (k1 * 2 ^ 63 <= k2 * 2 ^ 63 + 2 ^ 105 * P)%N).
  { eapply N.le_trans; [exact X|]. apply N.add_le_mono_l, N.mul_le_mono_r, Y. }
  change (2 ^ 63)%N with (2 ^ 41 * 2 ^ 22)%N in Z. change (2 ^ 105)%N with (2 ^ 41 * 2 ^ 64)%N in Z.
  assert (0 < 2 ^ 41)%N by reflexivity. set (M := (2 ^ 41)%N) in *. set (K := (2 ^ 22)%N) in *. set (J := (2 ^ 64)%N) in *. clearbody M K J.
  apply (N.mul_le_mono_pos_l _ _ M); [assumption|]. nia.
Qed.

(** ** A concealed subtree without empty slots is seen *)
Definition hidden_hashes (xs : list tree_node) : list bytes32 :=
  flat_map (fun x => match x with ConcealedNode _ h => [h] | CommitmentLeaf _ _ => [] end) xs.
Lemma hidden_prestrict {H : Hasher} D W c g e k : forall o d, k <= D ->
  hidden_hashes (flatten d (prestrict g W (D - k) (full_tree k o (lpt c e)))) = map (fun x => nh D W c e (fst x) (snd x)) (tops c g k o).
Proof.
  induction k as [|k IH]; intros o d KD; cbn [tops full_tree].
  - destruct (vis c g 0 o) eqn:Vi; cbn [vis] in Vi; unfold nh; cbn [map fst snd full_tree]; unfold lpt;
      destruct (c o) as [[p m]|]; try discriminate; cbn [prestrict]; try rewrite Vi; reflexivity.
  - pose proof (vis_leaves c e g (S k) o) as VL. cbn [full_tree] in VL. cbn [prestrict]. rewrite VL. destruct (vis c g (S k) o) eqn:Vi; [|reflexivity].
    cbn [flatten]. unfold hidden_hashes. rewrite flat_map_app, map_app. replace (S (D - S k)) with (D - k) by lia.
    f_equal; apply IH; lia.
Qed.
Lemma under_top c g k o k2 o2 : sub k o k2 o2 -> vis c g k2 o2 = false -> exists k3 o3, In (k3, o3) (tops c g k o) /\ sub k3 o3 k2 o2.
Proof.
  induction 1 as [k o|k o k2 o2 S IH|k o k2 o2 S IH]; intros F.
  - exists k, o. split; [|apply sub_refl]. destruct k; cbn [tops]; rewrite F; left; reflexivity.
  - cbn [tops]. destruct (vis c g (Datatypes.S k) o) eqn:Vi.
    + destruct (IH F) as (k3 & o3 & I & B). exists k3, o3. split; [apply in_or_app; left; exact I|exact B].
    + exists (Datatypes.S k), o. split; [left; reflexivity|apply sub_l, S].
  - cbn [tops]. destruct (vis c g (Datatypes.S k) o) eqn:Vi.
    + destruct (IH F) as (k3 & o3 & I & B). exists k3, o3. split; [apply in_or_app; right; exact I|exact B].
    + exists (Datatypes.S k), o. split; [left; reflexivity|apply sub_r, S].
Qed.
Lemma node_sub K : forall O k a, k <= K -> (a < 2 ^ N.of_nat (K - k))%N -> sub K O k (O + a * 2 ^ N.of_nat k).
Proof.
  induction K as [|K IH]; intros O k a L B.
  - replace k with 0 in * by lia. change (2 ^ N.of_nat (0 - 0))%N with 1%N in B. replace (O + a * 2 ^ N.of_nat 0)%N with O by lia. apply sub_refl.
  - destruct (Nat.eq_dec k (S K)) as [->|Ne].
    + rewrite Nat.sub_diag in B. change (2 ^ N.of_nat 0)%N with 1%N in B. replace (O + a * 2 ^ N.of_nat (S K))%N with O by nia. apply sub_refl.
    + replace (S K - k) with (S (K - k)) in B by lia. rewrite Nat2N.inj_succ, N.pow_succ_r' in B.
      destruct (N.lt_ge_cases a (2 ^ N.of_nat (K - k))) as [X|X]; [apply sub_l, IH; [lia|exact X]|]. apply sub_r.
      assert (Q : (2 ^ N.of_nat K = 2 ^ N.of_nat (K - k) * 2 ^ N.of_nat k)%N).
      { rewrite <- N.pow_add_r. f_equal. lia. }
      replace (O + a * 2 ^ N.of_nat k)%N with (O + 2 ^ N.of_nat K + (a - 2 ^ N.of_nat (K - k)) * 2 ^ N.of_nat k)%N.
      * apply IH; lia.
      * rewrite Q. set (x := (2 ^ N.of_nat (K - k))%N) in *. set (y := (2 ^ N.of_nat k)%N). clearbody x y. nia.
Qed.
Lemma concealed_is_top t ids k a : concealed_top t ids k a -> In (k, (a * 2 ^ N.of_nat k)%N) (tops (tcells t) (mem ids) (mt_depth t) 0).
Proof.
  intros (L & B & Hid & Up). rewrite shows_vis in Hid. apply Bool.not_true_is_false in Hid.
  pose proof (node_sub (mt_depth t) 0 k a L B) as Sn. rewrite N.add_0_l in Sn.
  destruct (under_top _ _ _ _ _ _ Sn Hid) as (k3 & o3 & I & S3).
  destruct (Nat.eq_dec k3 k) as [->|Ne].
  { apply sub_bounds in S3 as (_ & X & Y). replace o3 with (a * 2 ^ N.of_nat k)%N in I by lia. exact I. }
  exfalso. pose proof (sub_bounds _ _ _ _ S3) as (L3 & _).
  pose proof (tops_sub _ _ _ _ _ _ I) as [Sb F3]. pose proof (sub_bounds _ _ _ _ Sb) as (LD & _).
  destruct (sub_align _ _ _ _ Sb 0%N eq_refl) as (a3 & E3 & _). destruct (sub_align _ _ _ _ S3 a3 E3) as (a' & Ea & Ba).
  assert (a' = a). { pose proof (pow_pos k). nia. } subst a'. clear Ea.
  destruct Up as [Up|Up]; [lia|]. destruct Up as (i & p & m & W & Sl & Ip).
  assert (Sh : shows t ids k3 a3).
  { exists i, p, m. split; [|auto]. unfold within in *.
    replace k3 with (Datatypes.S k + (k3 - Datatypes.S k)) at 1 by lia. rewrite Nat2N.inj_add, N.pow_add_r, <- N.div_div, W by (apply N.pow_nonzero; discriminate).
    replace (k3 - k) with (Datatypes.S (k3 - Datatypes.S k)) in Ba by lia. rewrite Nat2N.inj_succ, N.pow_succ_r' in Ba.
    rewrite N.div_div by (try discriminate; apply N.pow_nonzero; discriminate).
    set (x := (2 ^ N.of_nat (k3 - Datatypes.S k))%N) in *. clearbody x. symmetry. apply (N.div_unique a (2 * x)%N a3 (a - a3 * (2 * x))%N); lia. }
  rewrite shows_vis, <- E3, F3 in Sh. discriminate.
Qed.

Section Seen.
Variables (n : nat) (U : list (list byte)) (D : nat) (src1 src2 : multi_source) (t1 t2 : merkle_tree) (ids : list bytes32) (k : nat) (a j : N).
Hypothesis UU : universe n U.
Hypothesis short : 162 <= n.
Hypothesis V1 : valid_source src1.
Hypothesis V2 : valid_source src2.
Hypothesis S1 : ms_static_entropy src1 = None.
Hypothesis S2 : ms_static_entropy src2 = None.
Hypothesis E1 : try_commit src1 (Some 0%N) = Ret (Ok t1).
Hypothesis E2 : try_commit src2 (Some 0%N) = Ret (Ok t2).
Hypothesis QD : mt_depth t1 = mt_depth t2.
Hypothesis QC : mt_cofactor t1 = mt_cofactor t2.
Hypothesis D1 : mt_depth t1 <= D.
Hypothesis SH : forall p, In p ids -> exists m, In (p, m) (ms_messages src1) /\ In (p, m) (ms_messages src2).
Hypothesis Top : concealed_top t1 ids k a.
Notation Dp := (mt_depth t1).
Notation W := (2 ^ N.of_nat Dp)%N.
Notation o := (a * 2 ^ N.of_nat k)%N.
Notation J := (tops (tcells t1) (mem ids) Dp 0).
Hypothesis full : forall i, within k a i -> slot_of t1 i <> None.
Hypothesis Bj : within k a j.
Hypothesis differ : slot_of t1 j <> slot_of t2 j.
Variable ix : nat.
Hypothesis Ix : nth_error J ix = Some (k, o).

Definition spot_node (b : merkle_block) : prog bool :=
  Ask s_node_tag (fun th => andthen (p_full th W (slot_string th t1) (Dp - k) k o)
    (fun h => Done (b32_eqb h (nth ix (hidden_hashes (mb_cross_section b)) (b32_fill x00))))).
Lemma spot_node_modest b : modest n (2 * 2 ^ k) (spot_node b).
Proof.
  assert (P : 1 <= 2 ^ k) by (pose proof (Nat.pow_nonzero 2 k); lia).
  replace (2 * 2 ^ k) with (S ((2 * 2 ^ k - 1) + 0)) by lia. split; [eapply Nat.le_trans; [apply tag_length|exact short]|].
  intros th. apply modest_andthen; [apply p_full_modest, short|intros; exact I].
Qed.
Lemma spot_node_exec H b : exec H (spot_node b) = b32_eqb (@nh Dp W H (tcells t1) 0 k o) (nth ix (hidden_hashes (mb_cross_section b)) (b32_fill x00)).
Proof.
  assert (T0 : mt_entropy t1 = 0%N).
  { pose proof (commit_entropy src1 0 0 t1 S1 E1) as X. rewrite E1 in X. injection X as X. rewrite X. reflexivity. }
  unfold spot_node. cbn [exec]. rewrite exec_andthen, p_full_exec. cbn [exec]. unfold nh. rewrite <- T0. reflexivity.
Qed.
(** The answer to a block of [t] *)
Lemma spot_sees U0 src t f e : J = tops (tcells t) (mem ids) (mt_depth t) 0 -> mt_depth t = Dp ->
  exec (table U0 f) (spot_node (MBlock (ms_method src) (mt_depth t) (mt_cofactor t)
    (flatten 0 (fst (rebuild (tcells t) (mem ids) (mt_depth t) 0 (map (hash_at U0 t f e) (tops (tcells t) (mem ids) (mt_depth t) 0))))) None)) =
  b32_eqb (@nh Dp W (table U0 f) (tcells t1) 0 k o) (@nh Dp W (table U0 f) (tcells t) e k o).
Proof.
  intros QJ Qd. rewrite spot_node_exec. cbn [mb_cross_section]. f_equal.
  pose proof (@rebuild_is (table U0 f) (mt_depth t) (2 ^ N.of_nat (mt_depth t)) (tcells t) (mem ids) e (mt_depth t) 0 [] (le_n _)) as R.
  rewrite app_nil_r, Nat.sub_diag in R. unfold hash_at. rewrite R. cbn [fst].
  pose proof (@hidden_prestrict (table U0 f) (mt_depth t) (2 ^ N.of_nat (mt_depth t)) (tcells t) (mem ids) e (mt_depth t) 0 0 (le_n _)) as Hp.
  rewrite Nat.sub_diag in Hp. rewrite Hp, <- QJ. apply (map_nth_error (fun x => @nh (mt_depth t) (2 ^ N.of_nat (mt_depth t)) (table U0 f) (tcells t) e (fst x) (snd x))) in Ix.
  rewrite (nth_error_nth _ _ _ Ix). cbn [fst snd]. rewrite Qd. reflexivity.
Qed.
Lemma spot_node_finds K : counts (guesses_block U src1 ids spot_node) K -> K = (2 ^ 64 * 2 ^ (256 * N.of_nat (length U)))%N.
Proof.
  intros C. destruct (below (2 ^ 64)) as (Es & NE & IE & LE). destruct (c86_all (length U)) as (Fs & LF & NF).
  apply (block_sum U src1 t1 ids spot_node Es Fs) in C; try assumption; [|intros p I; destruct (SH p I) as (m & X & _); exists m; exact X].
  rewrite C. rewrite <- LE, <- NF, <- sum_same. apply sum_ext. intros e _.
  rewrite <- (N.mul_1_r (N.of_nat (length Fs))), <- sum_same. apply sum_ext. intros f _. rewrite spot_sees by reflexivity.
  rewrite (full_hash t1 (table U f) e k o), (proj2 (b32_eqb_eq _ _) eq_refl); [reflexivity|].
  destruct (free_node t1 (k, o)) eqn:F; [|reflexivity]. apply free_node_iff in F as (i & B & N). destruct (full i (proj2 (within_range _ _ _) B) N).
Qed.
Lemma spot_node_misses K : counts (guesses_block U src2 ids spot_node) K ->
  (K * 2 ^ 257 <= 2 ^ 64 * (2 * (2 * 2 ^ N.of_nat D + 2)) ^ 2 * 2 ^ (256 * N.of_nat (length U)))%N.
Proof.
  intros C. destruct (below (2 ^ 64)) as (Es & NE & IE & LE). destruct (c86_all (length U)) as (Fs & LF & NF).
  pose proof (shown_agree _ _ _ _ _ _ ids V1 V2 E1 E2 QD QC SH) as AG.
  pose proof (gt_depth _ (try_commit_good _ _ _ V1 E1)) as D31.
  assert (HW : (W < 2 ^ 256)%N) by (apply N.pow_lt_mono_r; lia).
  apply (block_sum U src2 t2 ids spot_node Es Fs) in C; try assumption; [|intros p I; destruct (SH p I) as (m & _ & X); exists m; exact X].
  rewrite C. clear C.
  rewrite <- sum_mul, <- LE, <- N.mul_assoc, <- sum_same. apply sum_le. intros e Ie.
  rewrite (sum_ext _ (fun f => ind (b32_eqb (@nh Dp W (table U f) (tcells t1) 0 k o) (@nh Dp W (table U f) (tcells t2) e k o)))).
  2:{ intros f _. rewrite spot_sees; [reflexivity| |symmetry; exact QD]. rewrite <- QD. apply tops_same, AG. }
  rewrite sum_ind. set (Q := (2 * 2 ^ D + 2) + (2 * 2 ^ D + 2)).
  assert (QW : N.of_nat Q = (2 * (2 * 2 ^ N.of_nat D + 2))%N).
  { unfold Q. rewrite !Nat2N.inj_add, !Nat2N.inj_mul, Nat2N.inj_pow. change (N.of_nat 2) with 2%N. ring. }
  eapply N.le_trans; [apply (c92_birthday n U _ (andthen (p_tree (with_entropy t1 0)) (fun _ => p_tree (with_entropy t2 e))) Q UU)|].
  + apply modest_andthen.
    * apply (modest_mono n _ (2 * 2 ^ mt_depth t1 + 2)); [|apply (p_tree_modest (with_entropy t1 0)), short]. apply work_mono, D1.
    * intros _. apply (modest_mono n _ (2 * 2 ^ mt_depth t2 + 2)); [|apply (p_tree_modest (with_entropy t2 e)), short].
      apply work_mono. rewrite <- QD. exact D1.
  + apply NoDup_filter, LF.
  + intros f If. apply filter_In in If as [If B]. split; [apply LF, If|]. apply b32_eqb_eq in B.
    set (L := asked (table U f) _). destruct (@coll_dec (table U f) L) as [Co|NC]; [exact Co|exfalso].
    assert (A1 : forall k2 o2, sub Dp 0 k2 o2 -> In (@nstr Dp W (table U f) (tcells t1) 0 k2 o2) L).
    { intros k2 o2 Sb. apply both_asked. apply in_or_app. left. apply p_tree_asked.
      exact (@tree_nodes (table U f) (with_entropy t1 0) k2 o2 Sb). }
    assert (A2 : forall k2 o2, sub Dp 0 k2 o2 -> In (@nstr Dp W (table U f) (tcells t2) e k2 o2) L).
    { intros k2 o2 Sb. apply both_asked. apply in_or_app. right. apply p_tree_asked. rewrite QD in *.
      exact (@tree_nodes (table U f) (with_entropy t2 e) k2 o2 Sb). }
    assert (SN : sub Dp 0 k o) by (apply nth_error_In, tops_sub in Ix; tauto). pose proof (sub_bounds _ _ _ _ SN) as (Lk & _).
    rewrite !nh_is in B by lia. destruct (@coll (table U f) L _ _ (A1 _ _ SN) (A2 _ _ SN) B) as [X|X]; [|contradiction].
    pose proof (@same_leaves (table U f) Dp W (tcells t1) (tcells t2) 0 e L k HW D31 NC o ltac:(lia)
      (fun k2 o2 S => conj (A1 _ _ (sub_trans _ _ _ _ _ _ SN S)) (A2 _ _ (sub_trans _ _ _ _ _ _ SN S))) X j (proj1 (within_range _ _ _) Bj)) as EL.
    pose proof (full j Bj) as Fj. unfold slot_of in *. unfold lstr, tcells in EL.
    destruct (om_get N.ltb j (mt_map t1)) as [[p m]|]; [|contradiction]. destruct (om_get N.ltb j (mt_map t2)) as [[p' m']|].
    * apply s_leaf_inj in EL as [<- <-]. apply differ. reflexivity.
    * exact (s_leaf_entropy _ _ _ _ EL).
  + rewrite N.pow_2_r, <- QW. apply N.mul_le_mono_r, N.mul_le_mono_l. clearbody Q. clear. lia.
Qed.
End Seen.
Lemma c95_seen : forall n U D src1 src2 t1 t2 ids k a j (strings : universe n U) (short : 162 <= n)
  (valid1 : valid_source src1) (valid2 : valid_source src2)
  (drawn1 : ms_static_entropy src1 = None) (drawn2 : ms_static_entropy src2 = None)
  (made1 : try_commit src1 (Some 0%N) = Ret (Ok t1)) (made2 : try_commit src2 (Some 0%N) = Ret (Ok t2))
  (same_depth : mt_depth t1 = mt_depth t2) (same_cofactor : mt_cofactor t1 = mt_cofactor t2) (depth : mt_depth t1 <= D)
  (shared : forall p, In p ids -> exists m, In (p, m) (ms_messages src1) /\ In (p, m) (ms_messages src2))
  (top : concealed_top t1 ids k a) (full : forall i, within k a i -> slot_of t1 i <> None)
  (there : within k a j) (different : slot_of t1 j <> slot_of t2 j),
  exists A, (forall b, modest n (2 * 2 ^ k) (A b)) /\
    forall k1 k2, counts (guesses_block U src1 ids A) k1 -> counts (guesses_block U src2 ids A) k2 ->
      (k1 = 2 ^ 64 * 2 ^ (256 * N.of_nat (length U)) /\
       k2 * 2 ^ 257 <= 2 ^ 64 * (2 * (2 * 2 ^ N.of_nat D + 2)) ^ 2 * 2 ^ (256 * N.of_nat (length U)))%N.
Proof.
  intros n U D src1 src2 t1 t2 ids k a j UU S V1 V2 S1 S2 E1 E2 QD QC DD SH Top F B X.
  destruct (In_nth_error _ _ (concealed_is_top _ _ _ _ Top)) as [ix Ix]. exists (spot_node t1 k a ix).
  split; [intros b; eapply spot_node_modest; eassumption|]. intros k1 k2 C1 C2. split.
  - eapply spot_node_finds with (src1 := src1) (src2 := src2); eassumption.
  - eapply spot_node_misses with (src1 := src1) (src2 := src2); eassumption.
Qed.
