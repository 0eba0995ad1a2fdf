(** C94: what a proof tells about the other messages. *)
From Verif Require Import Base BaseFacts OrdMap Strict Merkle MpcAtoms MpcTree MpcBlock.
From Verif Require Import SpecHash SpecTree SpecMerkle SpecFull SpecLocal SpecValid SpecFind SpecBlock SpecCommit SpecCount SpecGame SpecHideGame SpecViewGame.
From Verif Require Import HashFacts TreeFacts MerkleProofs MpcTreeProofs LocalProofs CountProofs GameProofs GameHideProofs GameViewProofs HideProofs.
From Verif Require Import TheoremsMpc TheoremsBlock TheoremsLocal TheoremsHide TheoremsCount TheoremsFind TheoremsGame TheoremsHideGame PathProofs.
From Verif Require Import SpecGame.
Local Open Scope nat_scope.

(** ** The subtrees beside a way *)
Definition sib (pos : N) (k : nat) : N := (N.lxor (pos / 2 ^ N.of_nat k) 1 * 2 ^ N.of_nat k)%N.
Lemma lxor1 a : N.lxor a 1 = (if N.odd a then a - 1 else a + 1)%N.
Proof. destruct a as [|[p|p|]]; reflexivity || (cbn; try reflexivity). all: destruct p; reflexivity. Qed.
Lemma lxor1_half a : (N.lxor a 1 / 2 = a / 2)%N.
Proof. rewrite <- !N.div2_div. destruct a as [|[p|p|]]; try reflexivity; destruct p; reflexivity. Qed.
Lemma lxor1_neq a : N.lxor a 1 <> a.
Proof. intros E. assert (X : N.lxor a (N.lxor a 1) = 0%N) by (rewrite E; apply N.lxor_nilpotent). rewrite <- N.lxor_assoc, N.lxor_nilpotent in X. discriminate. Qed.
Lemma beside_range pos k i : beside pos k i <-> (sib pos k <= i < sib pos k + 2 ^ N.of_nat k)%N.
Proof.
  unfold beside, sib. set (b := N.lxor _ 1). set (P := (2 ^ N.of_nat k)%N). assert (Pp : (0 < P)%N) by apply pow_pos. clearbody b P.
  pose proof (N.div_mod i P ltac:(lia)) as DM. pose proof (N.mod_lt i P ltac:(lia)) as ML. set (d := (i / P)%N) in *. set (r := (i mod P)%N) in *. split.
  - intros <-. clearbody d r. subst i. rewrite (N.mul_comm d P). lia.
  - intros L. symmetry. apply (N.div_unique i P b (i - b * P)%N); nia.
Qed.
Lemma aside_levels {H : Hasher} W D f pos K : forall o j, K <= D -> o = (j * 2 ^ N.of_nat K)%N -> (o <= pos < o + 2 ^ N.of_nat K)%N ->
  aside W (D - K) K o f pos = map (fun k => phash W (D - k) (full_tree k (sib pos k) f)) (rev (seq 0 K)) /\
  forall k, k < K -> sub K o k (sib pos k).
Proof.
  induction K as [|K IH]; intros o j KD Eo L; [split; [reflexivity|lia]|].
  rewrite Nat2N.inj_succ, N.pow_succ_r' in Eo, L. set (P := (2 ^ N.of_nat K)%N) in *. assert (0 < P)%N by apply pow_pos.
  rewrite seq_S, rev_app_distr. cbn [rev app map Nat.add]. cbn [aside]. fold P. replace (S (D - S K)) with (D - K) by lia.
  destruct (N.leb_spec (o + P) pos) as [B|B].
  - assert (Q : (pos / P = 2 * j + 1)%N) by (symmetry; apply (N.div_unique _ _ _ (pos - (2 * j + 1) * P)%N); nia).
    assert (Es : sib pos K = o).
    { unfold sib. fold P. rewrite Q, lxor1. replace (N.odd (2 * j + 1)) with true by (rewrite N.odd_add, N.odd_mul; reflexivity). nia. }
    destruct (IH (o + P)%N (2 * j + 1)%N ltac:(lia)) as [IH1 IH2]; [nia|lia|]. rewrite IH1, Es. split; [reflexivity|].
    intros k Lk. destruct (Nat.eq_dec k K) as [->|N]; [rewrite Es; apply sub_l, sub_refl|apply sub_r; apply IH2; lia].
  - assert (Q : (pos / P = 2 * j)%N) by (symmetry; apply (N.div_unique _ _ _ (pos - 2 * j * P)%N); nia).
    assert (Es : sib pos K = (o + P)%N).
    { unfold sib. fold P. rewrite Q, lxor1. replace (N.odd (2 * j)) with false by (rewrite N.odd_mul; reflexivity). nia. }
    destruct (IH o (2 * j)%N ltac:(lia)) as [IH1 IH2]; [nia|lia|]. rewrite IH1, Es. split; [reflexivity|].
    intros k Lk. destruct (Nat.eq_dec k K) as [->|N]; [rewrite Es; apply sub_r, sub_refl|apply sub_l; apply IH2; lia].
Qed.
(** None lies within another. *)
Lemma sib_apart pos k j : sub k (sib pos k) j (sib pos j) -> j = k.
Proof.
  intros S. apply sub_bounds in S as [L [L1 L2]]. destruct (Nat.eq_dec j k) as [->|N]; [reflexivity|exfalso].
  pose proof (pow_pos j) as P. assert (B1 : beside pos j (sib pos j)) by (apply beside_range; lia).
  assert (B2 : beside pos k (sib pos j)) by (apply beside_range; lia). unfold beside in B1, B2.
  assert (E : forall a, (a / 2 ^ N.of_nat k = a / 2 ^ N.of_nat j / 2 / 2 ^ N.of_nat (k - j - 1))%N).
  { intros a. assert (NZ : forall m, (2 ^ m)%N <> 0%N) by (intros; apply N.pow_nonzero; lia).
    replace (2 ^ N.of_nat k)%N with (2 ^ N.of_nat j * 2 * 2 ^ N.of_nat (k - j - 1))%N.
    - rewrite <- !N.div_div; [reflexivity| | | |]; try apply NZ; pose proof (NZ (N.of_nat j)); lia.
    - replace (N.of_nat k) with (N.of_nat j + 1 + N.of_nat (k - j - 1))%N by lia. rewrite !N.pow_add_r. reflexivity. }
  rewrite (E (sib pos j)), B1, lxor1_half, <- E in B2. symmetry in B2. exact (lxor1_neq _ B2).
Qed.

(** ** Strings under a changed hash function *)
Lemma nh_is {H : Hasher} D W c e k o : k <= D -> nh D W c e k o = HASH (nstr D W c e k o).
Proof.
  intros K. destruct k as [|k].
  - unfold nh, nstr, lstr. cbn [full_tree]. unfold lpt. destruct (c o) as [[p m]|]; reflexivity.
  - unfold nh, nstr. cbn [full_tree phash]. replace (S (D - S k)) with (D - k) by lia. reflexivity.
Qed.
Lemma nstr_long {H : Hasher} D W c e k o : 64 <= length (nstr D W c e k o).
Proof.
  assert (P : forall d, 64 <= length (s_pre s_node_tag d)) by (intros d; unfold s_pre; rewrite !app_length, !b32_length; lia).
  destruct k; cbn [nstr]; [unfold lstr; destruct (c o) as [[p m]|]|]; apply P.
Qed.
Lemma nstr_short {H : Hasher} D W c e k o : length (nstr D W c e k o) <= 162.
Proof. destruct k; cbn [nstr]; [unfold lstr; destruct (c o) as [[p m]|]; [apply leaf_length|apply entropy_length]|apply branch_length]. Qed.
Lemma lstr_tag (H H' : Hasher) c e i : H' s_node_tag = H s_node_tag -> @lstr H' c e i = @lstr H c e i.
Proof. intros E. unfold lstr, s_leaf, s_entropy, s_pre, HASH. rewrite E. reflexivity. Qed.
Lemma branch_tag (H H' : Hasher) d W a b : H' s_node_tag = H s_node_tag -> @s_branch H' d W a b = @s_branch H d W a b.
Proof. intros E. unfold s_branch, s_pre, HASH. rewrite E. reflexivity. Qed.
Lemma nstr_agree (H H' : Hasher) D W c e xs k : forall o, k <= D -> H' s_node_tag = H s_node_tag ->
  (forall s, ~ In s xs -> H' s = H s) ->
  (forall k2 o2, sub k o k2 o2 -> k2 < k -> ~ In (@nstr D W H c e k2 o2) xs) ->
  @nstr D W H' c e k o = @nstr D W H c e k o.
Proof.
  induction k as [|k IH]; intros o KD T E N; cbn [nstr]; [apply lstr_tag, T|].
  rewrite (branch_tag H H' _ _ _ _ T).
  assert (Q : forall o2, sub (S k) o k o2 -> @nh D W H' c e k o2 = @nh D W H c e k o2).
  { intros o2 S. rewrite !nh_is by lia. unfold HASH. rewrite IH; [apply E, N; [exact S|lia]|lia|exact T|exact E|].
    intros k3 o3 S3 L3. apply N; [eapply sub_trans; [exact S|exact S3]|lia]. }
  rewrite !Q; [reflexivity|apply sub_r, sub_refl|apply sub_l, sub_refl].
Qed.
Lemma nh_cells {H : Hasher} D W c c' e e' k : forall o,
  (forall i, (o <= i < o + 2 ^ N.of_nat k)%N -> lpt c e i = lpt c' e' i) -> nh D W c e k o = nh D W c' e' k o.
Proof. intros o E. unfold nh. f_equal. apply full_tree_ext_in, E. Qed.
Lemma same_leaves {H : Hasher} D W c c' e e' L k : (W < 2 ^ 256)%N -> D <= 31 -> ~ collision_in L -> forall o, k <= D ->
  (forall k2 o2, sub k o k2 o2 -> In (nstr D W c e k2 o2) L /\ In (nstr D W c' e' k2 o2) L) ->
  nstr D W c e k o = nstr D W c' e' k o -> forall i, (o <= i < o + 2 ^ N.of_nat k)%N -> lstr c e i = lstr c' e' i.
Proof.
  intros HW HD NC. induction k as [|k IH]; intros o KD I E i Li; cbn [nstr] in E.
  - change (2 ^ N.of_nat 0)%N with 1%N in Li. replace i with o by lia. exact E.
  - apply s_branch_inj in E as [_ [_ [E1 E2]]]; [|lia|lia|exact HW|exact HW]. rewrite !nh_is in E1, E2 by lia.
    assert (INJ : forall o2, sub (S k) o k o2 -> HASH (nstr D W c e k o2) = HASH (nstr D W c' e' k o2) -> nstr D W c e k o2 = nstr D W c' e' k o2).
    { intros o2 S Eh. destruct (I k o2 S) as [I1 I2]. destruct (coll L _ _ I1 I2 Eh) as [Q|Q]; [exact Q|contradiction]. }
    apply INJ in E1; [|apply sub_l, sub_refl]. apply INJ in E2; [|apply sub_r, sub_refl].
    rewrite Nat2N.inj_succ, N.pow_succ_r' in Li. destruct (N.lt_ge_cases i (o + 2 ^ N.of_nat k)%N) as [Lt|Ge].
    + apply (IH o); [lia| |exact E1|lia]. intros k2 o2 S. apply I, sub_l, S.
    + apply (IH (o + 2 ^ N.of_nat k)%N); [lia| |exact E2|lia]. intros k2 o2 S. apply I, sub_r, S.
Qed.

(** ** Filling in the hashes of the blinded subtrees *)
Fixpoint fill (free : nat -> bool) (h : nat -> bytes32) (ks : list nat) (cs : list bytes32) : list bytes32 :=
  match ks with
  | [] => []
  | k :: r => if free k then match cs with c :: cs' => c :: fill free h r cs' | [] => b32_fill x00 :: fill free h r [] end
              else h k :: fill free h r cs
  end.
Lemma fill_map free h g ks : fill free h ks (map g (filter free ks)) = map (fun k => if free k then g k else h k) ks.
Proof. induction ks as [|k ks IH]; [reflexivity|]. cbn [fill filter map]. destruct (free k); cbn [map]; rewrite IH; reflexivity. Qed.
Lemma fill_ext free free' h h' ks : forall cs, (forall k, In k ks -> free k = free' k) -> (forall k, In k ks -> free k = false -> h k = h' k) ->
  fill free h ks cs = fill free' h' ks cs.
Proof.
  induction ks as [|k ks IH]; intros cs E E'; [reflexivity|]. cbn [fill]. rewrite <- (E k (or_introl eq_refl)).
  assert (IH' : forall cs, fill free h ks cs = fill free' h' ks cs) by (intros; apply IH; intros; [apply E|apply E']; try right; assumption).
  destruct (free k) eqn:F; [destruct cs; rewrite IH'; reflexivity|]. rewrite IH', (E' k (or_introl eq_refl) F). reflexivity.
Qed.

(** ** Subtrees with an empty slot *)
Definition at_pos (t : merkle_tree) (pid : bytes32) : N := s_pos pid (mt_cofactor t) (mt_depth t).
Definition free_at (t : merkle_tree) (pid : bytes32) (k : nat) : bool :=
  existsb (fun i => match tcells t i with Some _ => false | None => true end) (N_from (sib (at_pos t pid) k) (2 ^ k)).
Lemma free_iff t pid k : free_at t pid k = true <-> exists i, beside (at_pos t pid) k i /\ slot_of t i = None.
Proof.
  unfold free_at. set (pos := at_pos t pid). rewrite existsb_exists. split.
  - intros (i & I & E). exists i. apply in_map_iff in I as (j & <- & J). apply in_seq in J.
    assert (P : (2 ^ N.of_nat k)%N = N.of_nat (2 ^ k)) by (rewrite pow_of_nat; reflexivity).
    split; [apply beside_range; rewrite P; lia|]. unfold tcells in E. unfold slot_of. destruct (om_get _ _ _); [discriminate|reflexivity].
  - intros (i & B & E). exists i. apply beside_range in B. split.
    + apply in_map_iff. exists (N.to_nat (i - sib pos k)). rewrite N2Nat.id. split; [lia|]. apply in_seq.
      assert (P : (2 ^ N.of_nat k)%N = N.of_nat (2 ^ k)) by (rewrite pow_of_nat; reflexivity). rewrite P in B. lia.
    + unfold tcells. unfold slot_of in E. rewrite E. reflexivity.
Qed.

Section One.
Variables (n : nat) (U : list (list byte)) (q D : nat) (A : merkle_proof -> prog bool) (src : multi_source) (t : merkle_tree) (pid msg : bytes32).
Variables (Es : list N) (Fs : list (list bytes32)) (Cs : list bytes32).
Hypothesis UU : universe n U.
Hypothesis short : 162 <= n.
Hypothesis few : forall x, modest n q (A x).
Hypothesis V : valid_source src.
Hypothesis S0 : ms_static_entropy src = None.
Hypothesis Et : try_commit src (Some 0%N) = Ret (Ok t).
Hypothesis Dt : mt_depth t <= D.
Hypothesis Ip : In (pid, msg) (ms_messages src).
Hypothesis NE : NoDup Es.
Hypothesis IE : forall e, In e Es <-> (e < 2 ^ 64)%N.
Hypothesis LE : N.of_nat (length Es) = (2 ^ 64)%N.
Hypothesis LF : lists_all Fs (fun f => length f = length U).
Hypothesis NF : N.of_nat (length Fs) = (2 ^ (256 * N.of_nat (length U)))%N.
Hypothesis NC : NoDup Cs.
Hypothesis IC : forall c, In c Cs.

Notation Dp := (mt_depth t).
Notation W := (2 ^ N.of_nat Dp)%N.
Notation c := (tcells t).
Notation pos := (at_pos t pid).
Notation free := (free_at t pid).
Definition levels : list nat := rev (seq 0 Dp).
Definition blind_levels : list nat := filter free levels.
Definition strings (e : N) (f : list bytes32) : list (list byte) := map (fun k => @nstr Dp W (table U f) c e k (sib pos k)) blind_levels.
Definition view (f cs : list bytes32) : merkle_proof :=
  MProof (ms_method src) pos (mt_cofactor t) (fill free (fun k => @nh Dp W (table U f) c 0 k (sib pos k)) levels cs).
Definition asked_all (f : list bytes32) : list (list byte) := asked (table U f) (p_each t Es).
Definition clean (f : list bytes32) : bool := if @coll_dec (table U f) (asked_all f) then false else true.

Lemma t_good : good_tree t. Proof. exact (try_commit_good _ _ _ V Et). Qed.
Lemma t_depth : Dp <= 31. Proof. exact (gt_depth _ t_good). Qed.
Lemma t_width : (W < 2 ^ 256)%N.
Proof. apply N.pow_lt_mono_r; [reflexivity|]. assert (TD := t_depth). clear - TD. lia. Qed.
Lemma pos_low : (pos < W)%N. Proof. apply pos_spec, t_depth. Qed.
Lemma te_good e : (e < 2 ^ 64)%N -> good_tree (with_entropy t e).
Proof. intros B. exact (try_commit_good _ _ _ V (commit_entropy src 0 e t S0 Et)). Qed.
Lemma level_in k : In k levels <-> k < Dp.
Proof. unfold levels. rewrite <- in_rev, in_seq. clear. lia. Qed.
Lemma blind_in k : In k blind_levels <-> k < Dp /\ free k = true.
Proof. unfold blind_levels. rewrite filter_In, level_in. reflexivity. Qed.
Lemma sib_node k : k < Dp -> sub Dp 0 k (sib pos k).
Proof. intros L. apply (@aside_levels (table U []) 0 Dp (fun _ => PConc (b32_fill x00)) pos Dp 0 0); [apply le_n|reflexivity|assert (PL := pos_low); clear - PL; lia|exact L]. Qed.

(** *** One table without collisions *)
Section Clean.
Variable f : list bytes32.
Hypothesis Cf : clean f = true.
Notation HH := (table U f).
Lemma no_coll : ~ @collision_in HH (asked_all f).
Proof. unfold clean in Cf. destruct (@coll_dec HH (asked_all f)); [discriminate|assumption]. Qed.
Lemma node_asked e k o : In e Es -> sub Dp 0 k o -> In (@nstr Dp W HH c e k o) (asked_all f).
Proof. intros I S. apply (p_each_asked HH t Es e I). exact (@tree_nodes HH (with_entropy t e) k o S). Qed.
Lemma str_same e e' k o k2 o2 : In e Es -> In e' Es -> sub Dp 0 k o -> sub Dp 0 k2 o2 ->
  @nstr Dp W HH c e k o = @nstr Dp W HH c e' k2 o2 -> k = k2 /\ o = o2.
Proof.
  intros I I' S S' E.
  apply (str_pos HH Dp W t_depth t_width c c e e' (asked_all f) no_coll) with (s := true) (s' := false); [|split| |exact S|exact S'|exact E].
  - intros [|] k1 o1 S1; apply node_asked; assumption.
  - apply (p_each_asked HH t Es e I). left. reflexivity.
  - apply (p_each_asked HH t Es e I). right. left. reflexivity.
  - intros s s' i j Si Sj El.
    assert (G : forall s, exists x, es e e' s = x /\ (x < 2 ^ 64)%N) by (intros [|]; eexists; (split; [reflexivity|apply IE; assumption])).
    destruct (G s) as (x & Ex & Bx), (G s') as (y & Ey & By). rewrite Ex, Ey in El.
    replace (cs c c s) with c in El by (destruct s; reflexivity). replace (cs c c s') with c in El by (destruct s'; reflexivity).
    exact (@leaves_det HH (with_entropy t x) (with_entropy t y) i j (te_good x Bx) (te_good y By) eq_refl eq_refl Si Sj El).
Qed.
Lemma strings_NoDup e : In e Es -> NoDup (strings e f).
Proof.
  intros I. apply NoDup_map_on; [apply NoDup_filter, NoDup_rev, seq_NoDup|]. intros k k' Ik Ik' E.
  apply blind_in in Ik as [Ik _], Ik' as [Ik' _]. apply (str_same e e) in E; [tauto|exact I|exact I|apply sib_node, Ik|apply sib_node, Ik'].
Qed.
Lemma strings_apart e e' x : In e Es -> In e' Es -> In x (strings e f) -> In x (strings e' f) -> e = e'.
Proof.
  intros I I' X X'. apply in_map_iff in X as (k & <- & Ik). apply in_map_iff in X' as (k' & E & Ik').
  apply blind_in in Ik as [Lk Fk], Ik' as [Lk' Fk']. symmetry in E.
  destruct (str_same e e' _ _ _ _ I I' (sib_node k Lk) (sib_node k' Lk') E) as [<- _].
  apply free_iff in Fk as (i & Bi & Ei).
  assert (El : @lstr HH c e i = @lstr HH c e' i).
  { apply (@same_leaves HH Dp W c c e e' (asked_all f) k t_width t_depth no_coll (sib pos k)); [lia| |exact E|apply beside_range, Bi].
    intros k2 o2 S. split; apply node_asked; try assumption; (eapply sub_trans; [apply sib_node, Lk|exact S]). }
  unfold lstr in El. unfold slot_of in Ei. unfold tcells in El. rewrite Ei in El.
  assert (Li : (i < W)%N).
  { apply node_pos. eapply sub_trans; [apply sib_node, Lk|]. apply pos_node. apply beside_range, Bi. }
  assert (W32 : (W <= 2 ^ 31)%N) by (apply N.pow_le_mono_r; pose proof t_depth; lia).
  apply (@s_entropy_inj HH) in El; [tauto|apply IE, I|apply IE, I'|lia|lia].
Qed.
Section Put.
Variables (e : N) (ds : list bytes32).
Hypothesis Ie : In e Es.
Notation H2 := (table U (puts U f (strings e f) ds)).
Lemma put_off s : ~ In s (strings e f) -> H2 s = HH s.
Proof. apply puts_other. Qed.
Lemma put_tag : H2 s_node_tag = HH s_node_tag.
Proof.
  apply put_off. intros I. apply in_map_iff in I as (k & E & _). pose proof (@nstr_long HH Dp W c e k (sib pos k)) as L. rewrite E in L.
  vm_compute in L. lia.
Qed.
Lemma inside k k2 o2 : k < Dp -> sub k (sib pos k) k2 o2 -> k2 < k \/ free k = false -> ~ In (@nstr Dp W HH c e k2 o2) (strings e f).
Proof.
  intros Lk S Or I. apply in_map_iff in I as (j & E & Ij). apply blind_in in Ij as [Lj Fj].
  assert (Sn : sub Dp 0 k2 o2) by (eapply sub_trans; [apply sib_node, Lk|exact S]).
  destruct (str_same e e _ _ _ _ Ie Ie (sib_node j Lj) Sn E) as [Ek Eo]. rewrite <- Ek, <- Eo in S. apply sib_apart in S.
  rewrite <- Ek, S in Or. rewrite S in Fj. destruct Or as [X|X]; [lia|congruence].
Qed.
Lemma str_stays k : k < Dp -> @nstr Dp W H2 c e k (sib pos k) = @nstr Dp W HH c e k (sib pos k).
Proof.
  intros Lk. apply (nstr_agree HH H2 Dp W c e (strings e f)); [lia|exact put_tag|exact put_off|].
  intros k2 o2 S L2. apply (inside k); [exact Lk|exact S|left; exact L2].
Qed.
Lemma strings_stay : strings e (puts U f (strings e f) ds) = strings e f.
Proof. apply map_ext_in. intros k I. apply blind_in in I as [Lk _]. apply str_stays, Lk. Qed.
Lemma full_hash (H : Hasher) e' k : free k = false -> @nh Dp W H c e' k (sib pos k) = @nh Dp W H c 0 k (sib pos k).
Proof.
  intros F. apply nh_cells. intros i L. unfold lpt. destruct (c i) as [[p m]|] eqn:E; [reflexivity|].
  assert (free k = true); [|congruence]. apply free_iff. exists i. split; [apply beside_range, L|exact E].
Qed.
Lemma view_stays cs : view (puts U f (strings e f) ds) cs = view f cs.
Proof.
  unfold view. f_equal. apply fill_ext; [reflexivity|]. intros k I F. apply level_in in I.
  rewrite <- (full_hash H2 e k F), <- (full_hash HH e k F). pose proof t_depth. rewrite !nh_is by lia. unfold HASH. rewrite str_stays by exact I.
  apply put_off, (inside k); [exact I|apply sub_refl|right; exact F].
Qed.
End Put.
End Clean.

Lemma strings_in e f : incl (strings e f) U /\ length (strings e f) = length blind_levels.
Proof.
  split; [|apply map_length]. intros x I. apply in_map_iff in I as (k & <- & _). apply (proj2 UU).
  pose proof (@nstr_short (table U f) Dp W c e k (sib pos k)). lia.
Qed.
Lemma proof_levels e f : (e < 2 ^ 64)%N ->
  @to_merkle_proof (table U f) Debug (@block_of_tree (table U f) (with_entropy t e)) pid =
  Ret (Ok (MProof (ms_method src) pos (mt_cofactor t) (map (fun k => @nh Dp W (table U f) c e k (sib pos k)) levels))).
Proof.
  intros B. pose proof (@tree_proof_is (table U f) Debug src (Some e) (with_entropy t e) pid msg V (commit_entropy src 0 e t S0 Et) Ip) as T.
  cbv zeta in T. cbn [with_entropy mt_cofactor mt_depth] in T. fold (at_pos t pid) in T. rewrite T. do 3 f_equal.
  unfold tree_aside. cbn [with_entropy mt_depth].
  destruct (@aside_levels (table U f) W Dp (@slot (table U f) (with_entropy t e)) pos Dp 0 0) as [L _]; [apply le_n|reflexivity|assert (PL := pos_low); clear - PL; lia|].
  rewrite Nat.sub_diag in L. exact L.
Qed.
Lemma view_real e f : (e < 2 ^ 64)%N ->
  @to_merkle_proof (table U f) Debug (@block_of_tree (table U f) (with_entropy t e)) pid = Ret (Ok (view f (map (table U f) (strings e f)))).
Proof.
  intros B. rewrite proof_levels by exact B. unfold view. do 3 f_equal. unfold strings, blind_levels. rewrite map_map. cbv beta. rewrite fill_map.
  apply map_ext_in. intros k I. apply level_in in I. 
  destruct (free k) eqn:F; [rewrite nh_is by lia; reflexivity|]. apply full_hash, F.
Qed.
Lemma guesses_view k : counts (guesses_proof U src pid A) k ->
  k = sum (fun e => sum (fun f => answer U A view (map (table U f) (strings e f)) f f) Fs) Es.
Proof.
  intros C. rewrite (counts_ind (guesses_proof U src pid A)
    (fun ef => exec (table U (snd ef)) (A (view (snd ef) (map (table U (snd ef)) (strings (fst ef) (snd ef)))))) (list_prod Es Fs) k).
  - rewrite sum_prod. reflexivity.
  - apply NoDup_prod; [exact NE|apply LF].
  - intros [e f]. cbn [fst snd]. rewrite in_prod_iff, IE, (proj2 LF f). unfold guesses_proof. split.
    + intros (B & L & t' & pf & E & P & R). split; [auto|]. rewrite (commit_entropy src 0 e t S0 Et) in E. injection E as <-.
      rewrite view_real in P by exact B. injection P as <-. exact R.
    + intros [[B L] R]. split; [exact B|split; [exact L|]]. eexists _, _.
      split; [exact (commit_entropy src 0 e t S0 Et)|split; [apply view_real, B|exact R]].
  - exact C.
Qed.
Definition missed : N := N.of_nat (length (filter (fun f => negb (clean f)) Fs)).
Notation work := (2 * 2 ^ N.of_nat D + 2)%N.
Lemma missed_few : (missed * 2 ^ 257 <= (2 ^ 64 * work) * (2 ^ 64 * work) * 2 ^ (256 * N.of_nat (length U)))%N.
Proof.
  set (Q := length Es * (2 * 2 ^ Dp + 2)).
  assert (QW : (N.of_nat Q <= 2 ^ 64 * work)%N).
  { unfold Q. rewrite Nat2N.inj_mul, LE. apply N.mul_le_mono_l. rewrite Nat2N.inj_add, Nat2N.inj_mul, Nat2N.inj_pow.
    change (N.of_nat 2) with 2%N. apply N.add_le_mono_r, N.mul_le_mono_l, N.pow_le_mono_r; [discriminate|]. pose proof Dt. lia. }
  eapply N.le_trans; [apply (c92_birthday n U _ (p_each t Es) Q UU)|].
  - apply p_each_modest, short.
  - apply NoDup_filter, LF.
  - intros f I. apply filter_In in I as [I B]. split; [apply LF, I|]. unfold clean in B.
    destruct (@coll_dec (table U f) (asked_all f)) as [Co|]; [exact Co|discriminate].
  - apply N.mul_le_mono_r. apply N.mul_le_mono; [exact QW|]. eapply N.le_trans; [|exact QW]. lia.
Qed.
Lemma near k : counts (guesses_proof U src pid A) k ->
  let Ct := tuples Cs (length blind_levels) in
  let ideal := sum (fun f => sum (fun ds => answer U A view ds f f) Ct) Fs in
  let err := (N.of_nat (length Ct) * (N.of_nat q * N.of_nat (length Fs) + 2 ^ 65 * missed))%N in
  (k * N.of_nat (length Ct) <= 2 ^ 64 * ideal + err /\ 2 ^ 64 * ideal <= k * N.of_nat (length Ct) + err)%N.
Proof.
  intros C Ct ideal err. rewrite (guesses_view k C).
  pose proof (touches_total U (length blind_levels) A Fs Cs view clean LF n q Es strings few NE
    (fun f e e' x L G I I' X X' => strings_apart f G e e' x I I' X X')) as TT.
  fold Ct in TT. fold missed in TT. rewrite LE in TT.
  assert (O : forall e, In e Es -> _ /\ _) by (intros e I;
    exact (one_view U (length blind_levels) A Fs Cs view clean (proj1 UU) LF NC IC (strings e) (fun f _ => strings_in e f)
      (fun f _ G => strings_NoDup f G e I) (fun f ds _ G => strings_stay f G e ds I) (fun f ds d _ G => view_stays f G e ds I d))).
  fold Ct in O. fold missed in O. fold ideal in O.
  set (R := sum (fun e => sum (fun f => answer U A view (map (table U f) (strings e f)) f f) Fs) Es).
  set (TB := sum (fun e => sum (fun f => sum (fun ds => ind (touches U A view (strings e f) ds f)) Ct) Fs) Es) in TT.
  assert (M : (sum (fun _ : N => missed * N.of_nat (length Ct)) Es = 2 ^ 64 * (missed * N.of_nat (length Ct)))%N) by (rewrite sum_same, LE; reflexivity).
  assert (Id : (sum (fun _ : N => ideal) Es = 2 ^ 64 * ideal)%N) by (rewrite sum_same, LE; reflexivity).
  assert (P1 : (R * N.of_nat (length Ct) <= 2 ^ 64 * ideal + (TB + 2 ^ 64 * (missed * N.of_nat (length Ct))))%N).
  { rewrite <- M, <- Id. unfold R, TB. rewrite <- sum_mul, <- !sum_add. apply sum_le. intros e I. apply (O e I). }
  assert (P2 : (2 ^ 64 * ideal <= R * N.of_nat (length Ct) + (TB + 2 ^ 64 * (missed * N.of_nat (length Ct))))%N).
  { rewrite <- M, <- Id. unfold R, TB. rewrite <- sum_mul, <- !sum_add. apply sum_le. intros e I. apply (O e I). }
  assert (K : (TB + 2 ^ 64 * (missed * N.of_nat (length Ct)) <= err)%N).
  { unfold err. change (2 ^ 65)%N with (2 ^ 64 + 2 ^ 64)%N. set (x := (2 ^ 64)%N) in *. set (y := N.of_nat (length Ct)) in *. set (z := missed) in *.
    clearbody x y z TB. clear - TT. nia. }
  set (x := (2 ^ 64 * ideal)%N) in *. set (y := (R * N.of_nat (length Ct))%N) in *. clearbody x y TB err. clear - P1 P2 K. lia.
Qed.
End One.

Lemma screened_free t1 t2 pid k : screened t1 t2 (at_pos t1 pid) -> at_pos t1 pid = at_pos t2 pid -> k < mt_depth t1 ->
  free_at t1 pid k = free_at t2 pid k.
Proof.
  intros S E L. apply Bool.eq_true_iff_eq. rewrite !free_iff, <- E. destruct (S k L) as [(i1 & i2 & X1 & X2)|X].
  - split; intros _; eauto.
  - split; intros (i & B & N); exists i; (split; [exact B|]); rewrite <- N; [symmetry|]; apply X, B.
Qed.

Lemma c94_hidden : forall n U q D (A : merkle_proof -> prog bool) src1 src2 t1 t2 pid msg1 msg2 k1 k2
  (strings : universe n U) (short : 162 <= n) (few : forall pf, modest n q (A pf))
  (valid1 : valid_source src1) (valid2 : valid_source src2)
  (drawn1 : ms_static_entropy src1 = None) (drawn2 : ms_static_entropy src2 = None)
  (made1 : try_commit src1 (Some 0%N) = Ret (Ok t1)) (made2 : try_commit src2 (Some 0%N) = Ret (Ok t2))
  (same_method : ms_method src1 = ms_method src2) (same_depth : mt_depth t1 = mt_depth t2)
  (same_cofactor : mt_cofactor t1 = mt_cofactor t2) (depth : mt_depth t1 <= D)
  (own1 : In (pid, msg1) (ms_messages src1)) (own2 : In (pid, msg2) (ms_messages src2))
  (covered : screened t1 t2 (s_pos pid (mt_cofactor t1) (mt_depth t1)))
  (yes1 : counts (guesses_proof U src1 pid A) k1) (yes2 : counts (guesses_proof U src2 pid A) k2),
  (k1 * 2 ^ 63 <= k2 * 2 ^ 63 + (N.of_nat q * 2 ^ 64 + (2 * 2 ^ N.of_nat D + 2) ^ 2) * 2 ^ (256 * N.of_nat (length U)))%N.
Proof.
  intros n U q D A src1 src2 t1 t2 pid msg1 msg2 k1 k2 UU S F V1 V2 S1 S2 E1 E2 QM QD QC DD I1 I2 SC C1 C2.
  destruct (below (2 ^ 64)) as (Es & NE & IE & LE). destruct (c86_all (length U)) as (Fs & LF & NF).
  destruct all_ids as (Cs & NC & IC & LC).
  assert (EP : at_pos t1 pid = at_pos t2 pid) by (unfold at_pos; rewrite QD, QC; reflexivity).
  fold (at_pos t1 pid) in SC.
  assert (EL : levels t1 = levels t2) by (unfold levels; rewrite QD; reflexivity).
  assert (EB : blind_levels t1 pid = blind_levels t2 pid).
  { unfold blind_levels. rewrite <- EL. apply filter_ext_in. intros k I. apply level_in in I. apply screened_free; assumption. }
  destruct (near n U q D A src1 t1 pid msg1 Es Fs Cs UU S F V1 S1 E1 DD I1 NE IE LE LF NF NC IC k1 C1) as [N1 _].
  destruct (near n U q D A src2 t2 pid msg2 Es Fs Cs UU S F V2 S2 E2 ltac:(lia) I2 NE IE LE LF NF NC IC k2 C2) as [_ N2].
  cbv zeta in N1, N2. rewrite <- EB in N2.
  assert (EV : forall f cs, view U src1 t1 pid f cs = view U src2 t2 pid f cs).
  { intros f cs. unfold view. rewrite EP, QM, QC, EL. f_equal. apply fill_ext.
    - intros k I. rewrite <- EL in I. apply level_in in I. apply screened_free; assumption.
    - intros k I Fk. rewrite <- EL in I. apply level_in in I. rewrite <- EP, QD. apply nh_cells. intros i L.
      destruct (SC k I) as [(i1 & _ & [B1 X1] & _)|X].
      + assert (free_at t1 pid k = true); [|congruence]. apply free_iff. eauto.
      + specialize (X i (proj2 (beside_range _ _ _) L)). unfold slot_of in X. unfold lpt, tcells. rewrite <- X.
        reflexivity. }
  assert (EI : forall f ds, answer U A (view U src1 t1 pid) ds f f = answer U A (view U src2 t2 pid) ds f f) by (intros; unfold answer; rewrite EV; reflexivity).
  set (Ct := tuples Cs (length (blind_levels t1 pid))) in *.
  assert (ES : sum (fun f => sum (fun ds => answer U A (view U src1 t1 pid) ds f f) Ct) Fs = sum (fun f => sum (fun ds => answer U A (view U src2 t2 pid) ds f f) Ct) Fs)
    by (apply sum_ext; intros; apply sum_ext; intros; apply EI).
  rewrite ES in N1. set (Y := sum _ Fs) in *.
  pose proof (missed_few n U D t1 Es Fs UU S DD LE LF NF) as M1. pose proof (missed_few n U D t2 Es Fs UU S ltac:(lia) LE LF NF) as M2.
  set (x1 := missed U t1 Es Fs) in *. set (x2 := missed U t2 Es Fs) in *. rewrite NF in *. set (T := (2 ^ (256 * N.of_nat (length U)))%N) in *.
  assert (LP : (0 < N.of_nat (length Ct))%N).
  { unfold Ct. rewrite tuples_length, LC. apply N.neq_0_lt_0, N.pow_nonzero. discriminate. }
  set (P := N.of_nat (length Ct)) in *. rewrite N.pow_2_r. set (w := (2 * 2 ^ N.of_nat D + 2)%N) in *.
  assert (Z : (k1 <= k2 + (2 * (N.of_nat q * T) + 2 ^ 65 * x1 + 2 ^ 65 * x2))%N).
  { clearbody P Y x1 x2 T. clear - N1 N2 LP. set (a := (2 ^ 64 * Y)%N) in *. set (b := (2 ^ 65)%N) in *. clearbody a b.
    apply (N.mul_le_mono_pos_r _ _ P LP). nia. }
  assert (B1 : (2 ^ 63 * (2 ^ 65 * x1) * 2 <= w * w * T)%N).
  { apply (N.mul_le_mono_pos_l _ _ (2 ^ 128)); [reflexivity|]. replace (2 ^ 128 * (2 ^ 63 * (2 ^ 65 * x1) * 2))%N with (x1 * 2 ^ 257)%N
      by (change (2 ^ 257)%N with (2 ^ 128 * 2 ^ 63 * 2 ^ 65 * 2)%N; ring).
    eapply N.le_trans; [exact M1|]. apply N.eq_le_incl. change (2 ^ 128)%N with (2 ^ 64 * 2 ^ 64)%N. ring. }
  assert (B2 : (2 ^ 63 * (2 ^ 65 * x2) * 2 <= w * w * T)%N).
  { apply (N.mul_le_mono_pos_l _ _ (2 ^ 128)); [reflexivity|]. replace (2 ^ 128 * (2 ^ 63 * (2 ^ 65 * x2) * 2))%N with (x2 * 2 ^ 257)%N
      by (change (2 ^ 257)%N with (2 ^ 128 * 2 ^ 63 * 2 ^ 65 * 2)%N; ring).
    eapply N.le_trans; [exact M2|]. apply N.eq_le_incl. change (2 ^ 128)%N with (2 ^ 64 * 2 ^ 64)%N. ring. }
  change (2 ^ 64)%N with (2 ^ 63 * 2)%N. clear - Z B1 B2. clearbody T w x1 x2. set (a := (2 ^ 63)%N) in *. set (b := (2 ^ 65)%N) in *.
  set (W := (w * w * T)%N) in *. replace ((N.of_nat q * (a * 2) + w * w) * T)%N with (N.of_nat q * T * (a * 2) + W)%N by (unfold W; ring).
  clearbody a b W. nia.
Qed.

(** ** A subtree without empty slots is seen *)
Section Seen.
Variables (n : nat) (U : list (list byte)) (D : nat) (src1 src2 : multi_source) (t1 t2 : merkle_tree) (pid msg1 msg2 : bytes32) (k : nat) (j : N).
Hypothesis UU : universe n U.
Hypothesis short : 162 <= n.
Hypothesis V1 : valid_source src1.
Hypothesis V2 : valid_source src2.
Hypothesis S1 : ms_static_entropy src1 = None.
Hypothesis S2 : ms_static_entropy src2 = None.
Hypothesis E1 : try_commit src1 (Some 0%N) = Ret (Ok t1).
Hypothesis E2 : try_commit src2 (Some 0%N) = Ret (Ok t2).
Hypothesis QD : mt_depth t1 = mt_depth t2.
Hypothesis QC : mt_cofactor t1 = mt_cofactor t2.
Hypothesis D1 : mt_depth t1 <= D.
Hypothesis I1 : In (pid, msg1) (ms_messages src1).
Hypothesis I2 : In (pid, msg2) (ms_messages src2).
Hypothesis Lk : k < mt_depth t1.
Notation pos := (at_pos t1 pid).
Notation Dp := (mt_depth t1).
Notation W := (2 ^ N.of_nat Dp)%N.
Hypothesis full : forall i, beside pos k i -> slot_of t1 i <> None.
Hypothesis Bj : beside pos k j.
Hypothesis differ : slot_of t1 j <> slot_of t2 j.

Definition spot (pf : merkle_proof) : prog bool :=
  Ask s_node_tag (fun th => andthen (p_full th W (slot_string th t1) (Dp - k) k (sib pos k))
    (fun h => Done (b32_eqb h (nth (Dp - 1 - k) (mp_path pf) (b32_fill x00))))).
Lemma spot_modest pf : modest n (2 * 2 ^ k) (spot pf).
Proof.
  assert (P : 1 <= 2 ^ k) by (pose proof (Nat.pow_nonzero 2 k); lia).
  replace (2 * 2 ^ k) with (S ((2 * 2 ^ k - 1) + 0)) by lia. split; [eapply Nat.le_trans; [apply tag_length|exact short]|].
  intros th. apply modest_andthen; [apply p_full_modest, short|intros; exact I].
Qed.
Lemma spot_exec H pf : exec H (spot pf) = b32_eqb (@nh Dp W H (tcells t1) 0 k (sib pos k)) (nth (Dp - 1 - k) (mp_path pf) (b32_fill x00)).
Proof.
  assert (T0 : mt_entropy t1 = 0%N).
  { pose proof (commit_entropy src1 0 0 t1 S1 E1) as X. rewrite E1 in X. injection X as X. rewrite X. reflexivity. }
  unfold spot. cbn [exec]. rewrite exec_andthen, p_full_exec. cbn [exec]. unfold nh. rewrite <- T0. reflexivity.
Qed.
Lemma free_full : free_at t1 pid k = false.
Proof. destruct (free_at t1 pid k) eqn:F; [|reflexivity]. apply free_iff in F as (i & B & N). destruct (full i B N). Qed.
Lemma nth_levels {X} (g : nat -> X) d : nth (Dp - 1 - k) (map g (rev (seq 0 Dp))) d = g k.
Proof.
  rewrite (nth_indep _ d (g 0)) by (rewrite map_length, rev_length, seq_length; lia). rewrite map_nth. f_equal.
  rewrite rev_nth by (rewrite seq_length; lia). rewrite seq_length, seq_nth by lia. lia.
Qed.
Lemma spot_finds K : counts (guesses_proof U src1 pid spot) K -> K = (2 ^ 64 * 2 ^ (256 * N.of_nat (length U)))%N.
Proof.
  intros C. destruct (below (2 ^ 64)) as (Es & NE & IE & LE). destruct (c86_all (length U)) as (Fs & LF & NF).
  rewrite (counts_ind (guesses_proof U src1 pid spot) (fun _ => true) (list_prod Es Fs) K).
  - cbn [ind]. rewrite sum_same, prod_length, Nat2N.inj_mul, LE, NF. apply N.mul_1_r.
  - apply NoDup_prod; [exact NE|apply LF].
  - intros [e f]. rewrite in_prod_iff, IE, (proj2 LF f). unfold guesses_proof. split; [tauto|]. intros [[B Lf] _]. split; [exact B|split; [exact Lf|]].
    eexists _, _. split; [exact (commit_entropy src1 0 e t1 S1 E1)|]. rewrite (proof_levels U src1 t1 pid msg1 V1 S1 E1 I1 e f B).
    split; [reflexivity|]. rewrite spot_exec. cbn [mp_path]. unfold levels. rewrite nth_levels. apply b32_eqb_eq.
    symmetry. apply full_hash, free_full.
  - exact C.
Qed.
Lemma spot_misses K : counts (guesses_proof U src2 pid spot) K ->
  (K * 2 ^ 257 <= 2 ^ 64 * (2 * (2 * 2 ^ N.of_nat D + 2)) ^ 2 * 2 ^ (256 * N.of_nat (length U)))%N.
Proof.
  intros C. destruct (below (2 ^ 64)) as (Es & NE & IE & LE). destruct (c86_all (length U)) as (Fs & LF & NF).
  assert (EP : at_pos t1 pid = at_pos t2 pid) by (unfold at_pos; rewrite QD, QC; reflexivity).
  pose proof (gt_depth _ (try_commit_good _ _ _ V1 E1)) as D31.
  assert (HW : (W < 2 ^ 256)%N) by (apply N.pow_lt_mono_r; lia).
  assert (N2 : forall e f, nth (Dp - 1 - k) (map (fun k => @nh (mt_depth t2) (2 ^ N.of_nat (mt_depth t2)) (table U f) (tcells t2) e k (sib (at_pos t2 pid) k)) (levels t2))
     (b32_fill x00) = @nh Dp W (table U f) (tcells t2) e k (sib pos k)).
  { intros e f. unfold levels. rewrite <- QD, <- EP. apply (nth_levels (fun k => @nh Dp W (table U f) (tcells t2) e k (sib pos k))). }
  rewrite (counts_ind (guesses_proof U src2 pid spot)
    (fun ef => b32_eqb (@nh Dp W (table U (snd ef)) (tcells t1) 0 k (sib pos k)) (@nh Dp W (table U (snd ef)) (tcells t2) (fst ef) k (sib pos k)))
    (list_prod Es Fs) K).
  - rewrite sum_prod, <- sum_mul, <- LE, <- N.mul_assoc, <- sum_same. apply sum_le. intros e Ie. cbn [fst snd]. rewrite sum_ind.
    set (Q := (2 * 2 ^ D + 2) + (2 * 2 ^ D + 2)).
    assert (QW : N.of_nat Q = (2 * (2 * 2 ^ N.of_nat D + 2))%N).
    { unfold Q. rewrite !Nat2N.inj_add, !Nat2N.inj_mul, Nat2N.inj_pow. change (N.of_nat 2) with 2%N. ring. }
    eapply N.le_trans; [apply (c92_birthday n U _ (andthen (p_tree (with_entropy t1 0)) (fun _ => p_tree (with_entropy t2 e))) Q UU)|].
    + apply modest_andthen.
      * apply (modest_mono n _ (2 * 2 ^ mt_depth t1 + 2)); [|apply (p_tree_modest (with_entropy t1 0)), short]. apply work_mono, D1.
      * intros _. apply (modest_mono n _ (2 * 2 ^ mt_depth t2 + 2)); [|apply (p_tree_modest (with_entropy t2 e)), short].
        apply work_mono. rewrite <- QD. exact D1.
    + apply NoDup_filter, LF.
    + intros f If. apply filter_In in If as [If B]. split; [apply LF, If|]. apply b32_eqb_eq in B.
      set (L := asked (table U f) _). destruct (@coll_dec (table U f) L) as [Co|NC]; [exact Co|exfalso].
      assert (A1 : forall k2 o2, sub Dp 0 k2 o2 -> In (@nstr Dp W (table U f) (tcells t1) 0 k2 o2) L).
      { intros k2 o2 S. apply both_asked. apply in_or_app. left. apply p_tree_asked.
        exact (@tree_nodes (table U f) (with_entropy t1 0) k2 o2 S). }
      assert (A2 : forall k2 o2, sub Dp 0 k2 o2 -> In (@nstr Dp W (table U f) (tcells t2) e k2 o2) L).
      { intros k2 o2 S. apply both_asked. apply in_or_app. right. apply p_tree_asked. rewrite QD in *.
        exact (@tree_nodes (table U f) (with_entropy t2 e) k2 o2 S). }
      assert (SN : sub Dp 0 k (sib pos k)) by (apply (@sib_node U src1 t1 pid V1 E1 k Lk)).
      rewrite !nh_is in B by lia. destruct (@coll (table U f) L _ _ (A1 _ _ SN) (A2 _ _ SN) B) as [X|X]; [|contradiction].
      pose proof (@same_leaves (table U f) Dp W (tcells t1) (tcells t2) 0 e L k HW D31 NC (sib pos k) ltac:(lia)
        (fun k2 o2 S => conj (A1 _ _ (sub_trans _ _ _ _ _ _ SN S)) (A2 _ _ (sub_trans _ _ _ _ _ _ SN S))) X j (proj1 (beside_range _ _ _) Bj)) as EL.
      pose proof (full j Bj) as Fj. unfold slot_of in *. unfold lstr, tcells in EL.
      destruct (om_get N.ltb j (mt_map t1)) as [[p m]|]; [|contradiction]. destruct (om_get N.ltb j (mt_map t2)) as [[p' m']|].
      * apply s_leaf_inj in EL as [<- <-]. apply differ. reflexivity.
      * exact (s_leaf_entropy _ _ _ _ EL).
    + rewrite N.pow_2_r, <- QW. apply N.mul_le_mono_r, N.mul_le_mono_l. clearbody Q. clear. lia.
  - apply NoDup_prod; [exact NE|apply LF].
  - intros [e f]. cbn [fst snd]. rewrite in_prod_iff, IE, (proj2 LF f). unfold guesses_proof. split.
    + intros (B & Lf & t & pf & M & P & R). split; [auto|]. rewrite (commit_entropy src2 0 e t2 S2 E2) in M. injection M as <-.
      rewrite (proof_levels U src2 t2 pid msg2 V2 S2 E2 I2 e f B) in P. injection P as <-. rewrite spot_exec in R. cbn [mp_path] in R. rewrite N2 in R. exact R.
    + intros [[B Lf] R]. split; [exact B|split; [exact Lf|]]. eexists _, _. split; [exact (commit_entropy src2 0 e t2 S2 E2)|].
      rewrite (proof_levels U src2 t2 pid msg2 V2 S2 E2 I2 e f B). split; [reflexivity|]. rewrite spot_exec. cbn [mp_path]. rewrite N2. exact R.
  - exact C.
Qed.
End Seen.
Lemma c94_seen : forall n U D src1 src2 t1 t2 pid msg1 msg2 k j (strings : universe n U) (short : 162 <= n)
  (valid1 : valid_source src1) (valid2 : valid_source src2)
  (drawn1 : ms_static_entropy src1 = None) (drawn2 : ms_static_entropy src2 = None)
  (made1 : try_commit src1 (Some 0%N) = Ret (Ok t1)) (made2 : try_commit src2 (Some 0%N) = Ret (Ok t2))
  (same_depth : mt_depth t1 = mt_depth t2) (same_cofactor : mt_cofactor t1 = mt_cofactor t2) (depth : mt_depth t1 <= D)
  (own1 : In (pid, msg1) (ms_messages src1)) (own2 : In (pid, msg2) (ms_messages src2)) (height : k < mt_depth t1)
  (full : forall i, beside (s_pos pid (mt_cofactor t1) (mt_depth t1)) k i -> slot_of t1 i <> None)
  (there : beside (s_pos pid (mt_cofactor t1) (mt_depth t1)) k j) (different : slot_of t1 j <> slot_of t2 j),
  exists A, (forall pf, modest n (2 * 2 ^ k) (A pf)) /\
    forall k1 k2, counts (guesses_proof U src1 pid A) k1 -> counts (guesses_proof U src2 pid A) k2 ->
      (k1 = 2 ^ 64 * 2 ^ (256 * N.of_nat (length U)) /\
       k2 * 2 ^ 257 <= 2 ^ 64 * (2 * (2 * 2 ^ N.of_nat D + 2)) ^ 2 * 2 ^ (256 * N.of_nat (length U)))%N.
Proof.
  intros n U D src1 src2 t1 t2 pid msg1 msg2 k j UU S V1 V2 S1 S2 E1 E2 QD QC DD I1 I2 Lk F B X. exists (spot t1 pid k).
  split; [intros pf; eapply spot_modest; eassumption|]. intros k1 k2 C1 C2. split.
  - eapply spot_finds with (D := D) (src1 := src1) (t1 := t1) (t2 := t2) (msg1 := msg1) (k := k); eassumption.
  - eapply spot_misses with (src1 := src1) (src2 := src2) (t1 := t1) (t2 := t2) (msg2 := msg2) (k := k) (j := j); eassumption.
Qed.

(** ** What the numbers mean *)
Lemma c94_meaning : forall n U (A : merkle_proof -> prog bool) src t pid msg (strings : universe n U) (valid : valid_source src)
  (drawn : ms_static_entropy src = None) (made : try_commit src (Some 0%N) = Ret (Ok t)) (own : In (pid, msg) (ms_messages src)),
  (exists k, counts (guesses_proof U src pid A) k) /\
  counts (guesses_proof U src pid (fun _ => Done true)) (2 ^ 64 * 2 ^ (256 * N.of_nat (length U))).
Proof.
  intros n U A src t pid msg UU V S0 Et Ip. destruct (below (2 ^ 64)) as (Es & NE & IE & LE). destruct (c86_all (length U)) as (Fs & LF & NF).
  assert (B : forall B, forall ef, guesses_proof U src pid B ef <-> In ef (list_prod Es Fs) /\
    exec (table U (snd ef)) (B (MProof (ms_method src) (at_pos t pid) (mt_cofactor t)
      (map (fun k => @nh (mt_depth t) (2 ^ N.of_nat (mt_depth t)) (table U (snd ef)) (tcells t) (fst ef) k (sib (at_pos t pid) k)) (levels t)))) = true).
  { intros B [e f]. cbn [fst snd]. rewrite in_prod_iff, IE, (proj2 LF f). unfold guesses_proof. split.
    - intros (Be & Lf & t' & pf & M & P & R). split; [auto|]. rewrite (commit_entropy src 0 e t S0 Et) in M. injection M as <-.
      rewrite (proof_levels U src t pid msg V S0 Et Ip e f Be) in P. injection P as <-. exact R.
    - intros [[Be Lf] R]. split; [exact Be|split; [exact Lf|]]. eexists _, _. split; [exact (commit_entropy src 0 e t S0 Et)|].
      rewrite (proof_levels U src t pid msg V S0 Et Ip e f Be). split; [reflexivity|exact R]. }
  split.
  - eexists. apply (counts_exist _ _ (list_prod Es Fs) (NoDup_prod Es Fs NE (proj1 LF)) (B A)).
  - exists (list_prod Es Fs). split; [apply NoDup_prod; [exact NE|apply LF]|split].
    + intros ef. rewrite (B (fun _ => Done true)). cbn [exec]. tauto.
    + rewrite prod_length, Nat2N.inj_mul, LE, NF. reflexivity.
Qed.
(** 2^40 questions against trees of depth at most 16: the chances differ by less than 2^-22. *)
Lemma c94_numbers : forall n U q (A : merkle_proof -> prog bool) src1 src2 t1 t2 pid msg1 msg2 k1 k2 all
  (strings : universe n U) (short : 162 <= n) (few : forall pf, modest n q (A pf)) (work : (N.of_nat q <= 2 ^ 40)%N)
  (valid1 : valid_source src1) (valid2 : valid_source src2)
  (drawn1 : ms_static_entropy src1 = None) (drawn2 : ms_static_entropy src2 = None)
  (made1 : try_commit src1 (Some 0%N) = Ret (Ok t1)) (made2 : try_commit src2 (Some 0%N) = Ret (Ok t2))
  (same_method : ms_method src1 = ms_method src2) (same_depth : mt_depth t1 = mt_depth t2)
  (same_cofactor : mt_cofactor t1 = mt_cofactor t2) (depth : mt_depth t1 <= 16)
  (own1 : In (pid, msg1) (ms_messages src1)) (own2 : In (pid, msg2) (ms_messages src2))
  (covered : screened t1 t2 (s_pos pid (mt_cofactor t1) (mt_depth t1)))
  (yes1 : counts (guesses_proof U src1 pid A) k1) (yes2 : counts (guesses_proof U src2 pid A) k2)
  (total : counts (guesses_proof U src1 pid (fun _ => Done true)) all),
  (k1 * 2 ^ 22 <= k2 * 2 ^ 22 + all)%N.
Proof.
  intros n U q A src1 src2 t1 t2 pid msg1 msg2 k1 k2 all UU S F W V1 V2 S1 S2 E1 E2 QM QD QC DD I1 I2 SC C1 C2 CT.
  pose proof (c94_hidden n U q 16 A src1 src2 t1 t2 pid msg1 msg2 k1 k2 UU S F V1 V2 S1 S2 E1 E2 QM QD QC DD I1 I2 SC C1 C2) as X.
  destruct (c94_meaning n U A src1 t1 pid msg1 UU V1 S1 E1 I1) as (_ & M).
  assert (T : all = (2 ^ 64 * 2 ^ (256 * N.of_nat (length U)))%N).
  { destruct CT as (La & NLa & ILa & <-), M as (Lb & NLb & ILb & <-). f_equal. apply Nat.le_antisymm; apply NoDup_incl_length; try assumption;
      intros x I; [apply ILb, ILa, I|apply ILa, ILb, I]. }
  rewrite T. set (P := (2 ^ (256 * N.of_nat (length U)))%N) in *. clearbody P. clear - X W.
  change ((2 * 2 ^ N.of_nat 16 + 2) ^ 2)%N with 17180393476%N in X.
  assert (Y : (N.of_nat q * 2 ^ 64 + 17180393476 <= 2 ^ 105)%N).
  { eapply N.le_trans; [apply N.add_le_mono_r, N.mul_le_mono_r, W|]. vm_compute. discriminate. }
  assert (Z : (k1 * 2 ^ 63 <= k2 * 2 ^ 63 + 2 ^ 105 * P)%N).
  { eapply N.le_trans; [exact X|]. apply N.add_le_mono_l, N.mul_le_mono_r, Y. }
  change (2 ^ 63)%N with (2 ^ 41 * 2 ^ 22)%N in Z. change (2 ^ 105)%N with (2 ^ 41 * 2 ^ 64)%N in Z.
  assert (0 < 2 ^ 41)%N by reflexivity. set (M := (2 ^ 41)%N) in *. set (K := (2 ^ 22)%N) in *. set (J := (2 ^ 64)%N) in *. clearbody M K J.
  apply (N.mul_le_mono_pos_l _ _ M); [assumption|]. nia.
Qed.
