(** Lemmas for C118: the finest nodes of two trees whose hashes do not tell the trees apart, and what can be computed from them. *)
From Verif Require Import Base BaseFacts OrdMap Strict Merkle MpcAtoms MpcTree MpcBlock.
From Verif Require Import SpecHash SpecTree SpecMerkle SpecFull SpecLocal SpecValid SpecFind SpecBlock SpecCommit SpecCount SpecGame SpecHideGame SpecViewGame SpecBlockGame SpecTalk SpecMany SpecPick.
From Verif Require Import HashFacts TreeFacts MerkleProofs MpcTreeProofs ConcealProofs LocalProofs DerivedProofs CountProofs GameProofs GameHideProofs GameViewProofs HideProofs.
From Verif Require Import TheoremsMpc TheoremsMore TheoremsBlock TheoremsLocal TheoremsHide TheoremsCount TheoremsFind TheoremsGame TheoremsHideGame TheoremsViewGame PathProofs TheoremsBlockGame TheoremsTalk TheoremsMany.
From Verif Require Import SpecGame.
Local Open Scope nat_scope.

Lemma cell_dec (x y : option (bytes32 * bytes32)) : {x = y} + {x <> y}.
Proof. repeat decide equality; apply b32_eq_dec. Defined.

Section Veil.
Context (t1 t2 : merkle_tree).
Definition same_node (x : nd) : bool :=
  forallb (fun i => if cell_dec (tcells t1 i) (tcells t2 i) then true else false) (N_from (snd x) (2 ^ fst x)).
Lemma same_node_iff k o : same_node (k, o) = true <-> forall i, (o <= i < o + 2 ^ N.of_nat k)%N -> tcells t1 i = tcells t2 i.
Proof.
  unfold same_node. cbn [fst snd]. rewrite forallb_forall.
  assert (P : (2 ^ N.of_nat k)%N = N.of_nat (2 ^ k)) by (rewrite pow_of_nat; reflexivity). split.
  - intros A i B. specialize (A i). destruct (cell_dec (tcells t1 i) (tcells t2 i)) as [E|_]; [exact E|].
    assert (false = true); [|discriminate]. apply A, in_map_iff. exists (N.to_nat (i - o)). rewrite N2Nat.id. split; [lia|]. apply in_seq. rewrite P in B. lia.
  - intros A i I. apply in_map_iff in I as (j & <- & J). apply in_seq in J. destruct (cell_dec _ _) as [_|Ne]; [reflexivity|].
    exfalso. apply Ne, A. rewrite P. lia.
Qed.
(** The hash of the node does not tell the trees apart. *)
Definition veiled (x : nd) : bool := free_node t1 x && free_node t2 x || same_node x.
Lemma veiled_iff k o : veiled (k, o) = true <-> (free_node t1 (k, o) = true /\ free_node t2 (k, o) = true) \/
  forall i, (o <= i < o + 2 ^ N.of_nat k)%N -> tcells t1 i = tcells t2 i.
Proof. unfold veiled. rewrite orb_true_iff, andb_true_iff, same_node_iff. reflexivity. Qed.
Lemma veiled_leaf o : veiled (0, o) = true -> tcells t1 o = tcells t2 o.
Proof.
  rewrite veiled_iff. change (2 ^ N.of_nat 0)%N with 1%N. intros [[F1 F2]|E]; [|apply E; lia].
  apply free_node_iff in F1 as (i & B & E), F2 as (j & B' & E'). change (2 ^ N.of_nat 0)%N with 1%N in *.
  replace i with o in E by lia. replace j with o in E' by lia. congruence.
Qed.
Lemma free_part t k o k2 o2 : sub k o k2 o2 -> free_node t (k2, o2) = true -> free_node t (k, o) = true.
Proof.
  intros S F. apply sub_bounds in S. apply free_node_iff in F as (i & B & E). apply free_node_iff. exists i. split; [lia|exact E].
Qed.
Lemma veiled_both k o : veiled (k, o) = true -> veiled (k, (o + 2 ^ N.of_nat k)%N) = true -> veiled (S k, o) = true.
Proof.
  rewrite !veiled_iff. intros [[F1 F2]|E]; [left; split; eapply free_part; try eassumption; apply sub_l, sub_refl|].
  intros [[F1 F2]|E']; [left; split; eapply free_part; try eassumption; apply sub_r, sub_refl|]. right. intros i B.
  rewrite Nat2N.inj_succ, N.pow_succ_r' in B. destruct (N.lt_ge_cases i (o + 2 ^ N.of_nat k)%N); [apply E|apply E']; lia.
Qed.
Definition split_at (k : nat) (o : N) : bool := veiled (k, o) && veiled (k, (o + 2 ^ N.of_nat k)%N).
Fixpoint finest (k : nat) (o : N) : list nd :=
  match k with
  | O => [(O, o)]
  | S k' => if split_at k' o then finest k' o ++ finest k' (o + 2 ^ N.of_nat k')%N else [(S k', o)]
  end.
Lemma finest_sub k : forall o k2 o2, In (k2, o2) (finest k o) -> sub k o k2 o2.
Proof.
  induction k as [|k IH]; intros o k2 o2 I; cbn [finest] in I.
  - destruct I as [Q|[]]. injection Q as <- <-. apply sub_refl.
  - destruct (split_at k o); [|destruct I as [Q|[]]; injection Q as <- <-; apply sub_refl].
    apply in_app_or in I as [I|I]; apply IH in I; [apply sub_l|apply sub_r]; exact I.
Qed.
Lemma finest_veiled k : forall o x, veiled (k, o) = true -> In x (finest k o) -> veiled x = true.
Proof.
  induction k as [|k IH]; intros o x V I; cbn [finest] in I.
  - destruct I as [<-|[]]. exact V.
  - destruct (split_at k o) eqn:Sp; [|destruct I as [<-|[]]; exact V]. apply andb_true_iff in Sp as [S1 S2].
    apply in_app_or in I as [I|I]; [apply (IH o)|apply (IH (o + 2 ^ N.of_nat k)%N)]; assumption.
Qed.
Lemma finest_apart k : forall o k2 o2 k3 o3, In (k2, o2) (finest k o) -> In (k3, o3) (finest k o) -> sub k2 o2 k3 o3 -> (k2, o2) = (k3, o3).
Proof.
  induction k as [|k IH]; intros o k2 o2 k3 o3 I J B; cbn [finest] in I, J.
  - destruct I as [<-|[]], J as [<-|[]]. reflexivity.
  - destruct (split_at k o); [|destruct I as [<-|[]], J as [<-|[]]; reflexivity].
    apply sub_bounds in B as B'. pose proof (pow_pos k3). apply in_app_or in I, J. destruct I as [I|I], J as [J|J].
    + apply (IH o); assumption.
    + apply finest_sub, sub_bounds in I, J. lia.
    + apply finest_sub, sub_bounds in I, J. lia.
    + apply (IH (o + 2 ^ N.of_nat k)%N); assumption.
Qed.
Lemma finest_NoDup k : forall o, NoDup (finest k o).
Proof.
  induction k as [|k IH]; intros o; cbn [finest]; [repeat constructor; intros []|].
  destruct (split_at k o); [|repeat constructor; intros []]. apply NoDup_app_intro; [apply IH|apply IH|].
  intros [k2 o2] I1 I2. apply finest_sub, sub_bounds in I1, I2. pose proof (pow_pos k2). lia.
Qed.
Lemma finest_length k : forall o, length (finest k o) <= 2 ^ k.
Proof.
  induction k as [|k IH]; intros o; cbn [finest]; [cbn; lia|].
  pose proof (IH o). pose proof (IH (o + 2 ^ N.of_nat k)%N). assert (0 < 2 ^ k) by (clear; induction k; cbn; lia).
  destruct (split_at k o); [rewrite app_length|]; cbn [length Nat.pow]; lia.
Qed.

(** The tree of these nodes, from their hashes *)
Fixpoint grown (k : nat) (o : N) (hs : list bytes32) : ptree * list bytes32 :=
  match k with
  | O => (match tcells t1 o with Some (p, m) => PLeaf p m | None => PConc (hd (b32_fill x00) hs) end, tl hs)
  | S k' =>
      if split_at k' o
      then let '(l, hs1) := grown k' o hs in let '(r, hs2) := grown k' (o + 2 ^ N.of_nat k')%N hs1 in (PBr l r, hs2)
      else (PConc (hd (b32_fill x00) hs), tl hs)
  end.
Lemma grown_size k : forall o hs, p_size (fst (grown k o hs)) + 1 <= 2 * 2 ^ k.
Proof.
  assert (P : forall j, 0 < 2 ^ j) by (intros j; induction j; cbn; lia).
  induction k as [|k IH]; intros o hs; cbn [grown].
  - destruct (tcells t1 o) as [[p m]|]; cbn; lia.
  - destruct (split_at k o); [|cbn [fst p_size Nat.pow]; specialize (P k); lia]. specialize (IH o hs) as I1. destruct (grown k o hs) as [l hs1].
    specialize (IH (o + 2 ^ N.of_nat k)%N hs1) as I2. destruct (grown k _ hs1) as [r hs2]. cbn [fst p_size Nat.pow] in *. lia.
Qed.

Section Side.
Context (H : Hasher) (D : nat) (W : N) (c : cells) (e : N).
Hypothesis side : forall o, veiled (0, o) = true -> c o = tcells t1 o.
Fixpoint trimmed (k : nat) (o : N) : ptree :=
  match k with
  | O => lpt c e o
  | S k' => if split_at k' o then PBr (trimmed k' o) (trimmed k' (o + 2 ^ N.of_nat k')%N) else PConc (nh D W c e (S k') o)
  end.
Lemma grown_is k : forall o rest, veiled (k, o) = true ->
  grown k o (map (fun x => nh D W c e (fst x) (snd x)) (finest k o) ++ rest) = (trimmed k o, rest).
Proof.
  induction k as [|k IH]; intros o rest V; cbn [grown finest trimmed].
  - cbn [map app hd tl fst snd]. f_equal. rewrite <- (side o V). unfold nh. cbn [full_tree]. unfold lpt. destruct (c o) as [[p m]|]; reflexivity.
  - destruct (split_at k o) eqn:Sp; [|reflexivity]. apply andb_true_iff in Sp as [S1 S2]. rewrite map_app, <- app_assoc, IH, IH by assumption. reflexivity.
Qed.
Lemma trimmed_hash k : forall o, k <= D -> phash W (D - k) (trimmed k o) = phash W (D - k) (full_tree k o (lpt c e)).
Proof.
  induction k as [|k IH]; intros o L; cbn [trimmed full_tree]; [reflexivity|]. destruct (split_at k o); [|reflexivity].
  cbn [phash]. replace (S (D - S k)) with (D - k) by lia. rewrite !IH by lia. reflexivity.
Qed.
Lemma trimmed_leaves k : forall o, incl (pleaves (trimmed k o)) (pleaves (full_tree k o (lpt c e))).
Proof.
  induction k as [|k IH]; intros o; cbn [trimmed full_tree]; [apply incl_refl|]. destruct (split_at k o); [|intros x []].
  cbn [pleaves]. apply incl_app; [apply incl_appl, IH|apply incl_appr, IH].
Qed.
Lemma restrict_none g d t : existsb (fun x => g (fst x)) (pleaves t) = false -> prestrict g W d t = PConc (phash W d t).
Proof.
  destruct t as [h|p m|l r]; intros E; cbn [prestrict]; [reflexivity| |].
  - cbn in E. rewrite orb_false_r in E. rewrite E. reflexivity.
  - rewrite E. reflexivity.
Qed.
Section Shown.
Context (g : bytes32 -> bool).
Definition seemly (k : nat) (o : N) : Prop :=
  (forall x, In x (tops c g k o) -> veiled x = true) /\
  (forall i p m, (o <= i < o + 2 ^ N.of_nat k)%N -> c i = Some (p, m) -> g p = true -> tcells t1 i = tcells t2 i).
Lemma seemly_parts k o : seemly (S k) o -> vis c g (S k) o = true -> seemly k o /\ seemly k (o + 2 ^ N.of_nat k)%N.
Proof.
  intros [F1 F2] V. cbn [tops] in F1. rewrite V in F1. rewrite Nat2N.inj_succ, N.pow_succ_r' in F2.
  split; (split; [intros x I; apply F1, in_or_app; tauto|intros i p m B; apply F2; lia]).
Qed.
Lemma seemly_veiled k : forall o, seemly k o -> veiled (k, o) = true.
Proof.
  induction k as [|k IH]; intros o F.
  - destruct (vis c g 0 o) eqn:V; [|apply (proj1 F); cbn [tops]; rewrite V; left; reflexivity].
    apply veiled_iff. right. intros i B. change (2 ^ N.of_nat 0)%N with 1%N in B. replace i with o by lia.
    cbn [vis] in V. destruct (c o) as [[p m]|] eqn:E; [|discriminate]. apply (proj2 F o p m); [change (2 ^ N.of_nat 0)%N with 1%N; lia|exact E|exact V].
  - destruct (vis c g (S k) o) eqn:V; [|apply (proj1 F); cbn [tops]; rewrite V; left; reflexivity].
    destruct (seemly_parts k o F V) as [F1 F2]. apply veiled_both; apply IH; assumption.
Qed.
Lemma seemly_split k o : seemly (S k) o -> vis c g (S k) o = true -> split_at k o = true.
Proof. intros F V. destruct (seemly_parts k o F V) as [F1 F2]. unfold split_at. rewrite !seemly_veiled by assumption. reflexivity. Qed.
Lemma trimmed_restrict k : forall o, k <= D -> seemly k o ->
  existsb (fun x => g (fst x)) (pleaves (trimmed k o)) = vis c g k o /\
  prestrict g W (D - k) (trimmed k o) = prestrict g W (D - k) (full_tree k o (lpt c e)).
Proof.
  induction k as [|k IH]; intros o L F; [split; [exact (vis_leaves c e g 0 o)|reflexivity]|].
  pose proof (vis_leaves c e g (S k) o) as VL. destruct (vis c g (S k) o) eqn:V.
  - destruct (seemly_parts k o F V) as [F1 F2]. destruct (IH o ltac:(lia) F1) as [A1 B1]. destruct (IH _ ltac:(lia) F2) as [A2 B2].
    cbn [trimmed]. rewrite (seemly_split k o F V). cbn [full_tree] in *. cbn [pleaves prestrict] in *. rewrite VL, existsb_app, A1, A2.
    cbn [vis] in V. rewrite V. replace (S (D - S k)) with (D - k) by lia. rewrite B1, B2. split; reflexivity.
  - assert (E : existsb (fun x => g (fst x)) (pleaves (trimmed (S k) o)) = false).
    { apply Bool.not_true_is_false. intros X. apply existsb_exists in X as (x & I & G).
      assert (true = false); [|discriminate]. rewrite <- VL. symmetry. apply existsb_exists. exists x. split; [apply trimmed_leaves, I|exact G]. }
    split; [exact E|]. rewrite (restrict_none g _ _ E), (restrict_none g _ _ VL), trimmed_hash by exact L. reflexivity.
Qed.
Lemma trimmed_aside pos p m (Ep : c pos = Some (p, m)) (G : g p = true) k : forall o, k <= D -> seemly k o -> (o <= pos < o + 2 ^ N.of_nat k)%N ->
  exec H (p_aside (H s_node_tag) W (D - k) k o (trimmed k o) pos) = @aside H W (D - k) k o (lpt c e) pos.
Proof.
  induction k as [|k IH]; intros o L F B; [reflexivity|].
  assert (V : vis c g (S k) o = true) by (apply vis_spec; exists pos, p, m; split; [exact B|split; assumption]).
  destruct (seemly_parts k o F V) as [F1 F2]. cbn [trimmed aside]. rewrite (seemly_split k o F V). cbn [p_aside].
  rewrite Nat2N.inj_succ, N.pow_succ_r' in B. replace (S (D - S k)) with (D - k) by lia.
  destruct (N.leb_spec (o + 2 ^ N.of_nat k) pos)%N as [Q|Q]; rewrite exec_andthen, p_hash_exec, exec_andthen, IH by (assumption || lia);
    cbn [exec]; rewrite trimmed_hash by lia; reflexivity.
Qed.
End Shown.
End Side.
End Veil.
