(** block.rs:315-425: the aggregation loop computes the coarsest tree. *)
From Verif Require Import Base BaseFacts OrdMap OrdMapFacts SpecHash HashFacts Merkle MpcAtoms
  MpcTree MpcBlock SpecTree TreeFacts.
Local Open Scope nat_scope.

Section Conceal.
Context {H : Hasher}.

(** ** The pass with leaves handled one at a time *)
Fixpoint pass1 (md : mode) (D : nat) (xs : list tree_node) (offset count : N)
  : outcome (list tree_node * N * N) :=
  match xs with
  | [] => Ret ([], offset, count)
  | CommitmentLeaf p m :: tl =>
      offset' <- u32_add md offset 1 ;;
      ' (r, o, c) <- pass1 md D tl offset' count ;;
      Ret (CommitmentLeaf p m :: r, o, c)
  | ConcealedNode d1 h1 :: tl =>
      let skip :=
        s <- node_span md D d1 ;;
        offset' <- u32_add md offset s ;;
        ' (r, o, c) <- pass1 md D tl offset' count ;;
        Ret (ConcealedNode d1 h1 :: r, o, c) in
      match tl with
      | ConcealedNode d2 h2 :: tl2 =>
          if d1 =? d2 then
            depth <- u5_sub d1 1 ;;
            pow <- node_span md D depth ;;
            rem <- u32_rem offset pow ;;
            if negb (rem =? 0)%N then skip
            else
              offset' <- u32_add md offset pow ;;
              ' (r, o, c) <- pass1 md D tl2 offset' (count + 1)%N ;;
              Ret (tn_with h1 h2 depth (width_of D) :: r, o, c)
          else skip
      | _ => skip
      end
  end.

Lemma u32_add_two md o : 
  u32_add md o 2 = bind (u32_add md o 1) (fun o' => u32_add md o' 1).
Proof.
  unfold u32_add, u32_lim. 
  destruct (o + 1 <? 2 ^ 32)%N eqn:E1; cbn [bind].
  - apply N.ltb_lt in E1. replace (o + 1 + 1)%N with (o + 2)%N by lia. reflexivity.
  - apply N.ltb_ge in E1.
    replace (o + 2 <? 2 ^ 32)%N with false by (symmetry; apply N.ltb_ge; lia).
    destruct md; cbn [bind]; [reflexivity|].
    replace (o + 2)%N with (o + 1 + 1)%N by lia.
    destruct ((o + 1) mod 2 ^ 32 + 1 <? 2 ^ 32)%N eqn:E2.
    + apply N.ltb_lt in E2. f_equal.
      rewrite <- (N.mod_small ((o + 1) mod 2 ^ 32 + 1) (2 ^ 32)) by exact E2.
      rewrite N.add_mod_idemp_l by lia. reflexivity.
    + rewrite N.add_mod_idemp_l by lia. reflexivity.
Qed.

Lemma pass_cc (f : mode -> nat -> list tree_node -> N -> N -> outcome (list tree_node * N * N))
  md D d1 h1 d2 h2 tl2 o c :
  f = conceal_pass \/ f = pass1 ->
  f md D (ConcealedNode d1 h1 :: ConcealedNode d2 h2 :: tl2) o c =
  if d1 =? d2 then
    depth <- u5_sub d1 1 ;;
    pow <- node_span md D depth ;;
    rem <- u32_rem o pow ;;
    if negb (rem =? 0)%N then
      s <- node_span md D d1 ;;
      offset' <- u32_add md o s ;;
      ' (r, o, c) <- f md D (ConcealedNode d2 h2 :: tl2) offset' c ;;
      Ret (ConcealedNode d1 h1 :: r, o, c)
    else
      offset' <- u32_add md o pow ;;
      ' (r, o, c) <- f md D tl2 offset' (c + 1)%N ;;
      Ret (tn_with h1 h2 depth (width_of D) :: r, o, c)
  else
    s <- node_span md D d1 ;;
    offset' <- u32_add md o s ;;
    ' (r, o, c) <- f md D (ConcealedNode d2 h2 :: tl2) offset' c ;;
    Ret (ConcealedNode d1 h1 :: r, o, c).
Proof. intros [->| ->]; reflexivity. Qed.
Lemma pass_lc (f : mode -> nat -> list tree_node -> N -> N -> outcome (list tree_node * N * N))
  md D p1 m1 d2 h2 tl2 o c :
  f = conceal_pass \/ f = pass1 ->
  f md D (CommitmentLeaf p1 m1 :: ConcealedNode d2 h2 :: tl2) o c =
    offset' <- u32_add md o 1 ;;
    ' (r, o, c) <- f md D (ConcealedNode d2 h2 :: tl2) offset' c ;;
    Ret (CommitmentLeaf p1 m1 :: r, o, c).
Proof. intros [->| ->]; reflexivity. Qed.

Lemma pass_pass1 md D xs o c : conceal_pass md D xs o c = pass1 md D xs o c.
Proof.
  remember (length xs) as n eqn:En. revert xs o c En.
  induction n as [n IH] using (well_founded_induction lt_wf). intros xs o c ->.
  assert (IH' : forall ys o c, length ys < length xs -> conceal_pass md D ys o c = pass1 md D ys o c)
    by (intros; eapply IH; [eassumption|reflexivity]). clear IH.
  destruct xs as [|[d1 h1|p1 m1] tl]; [reflexivity| |].
  - destruct tl as [|[d2 h2|p2 m2] tl2].
    + cbn. destruct (node_span md D d1); cbn; [|reflexivity]. destruct (u32_add md o a); reflexivity.
    + rewrite (pass_cc conceal_pass), (pass_cc pass1) by auto.
      destruct (d1 =? d2).
      * destruct (u5_sub d1 1) as [depth|]; cbn [bind]; [|reflexivity].
        destruct (node_span md D depth) as [pow|]; cbn [bind]; [|reflexivity].
        destruct (u32_rem o pow) as [rem|]; cbn [bind]; [|reflexivity].
        destruct (negb (rem =? 0)%N).
        -- destruct (node_span md D d1) as [s|]; cbn [bind]; [|reflexivity].
           destruct (u32_add md o s) as [o'|]; cbn [bind]; [|reflexivity].
           rewrite (IH' (ConcealedNode d2 h2 :: tl2)) by (cbn; lia). reflexivity.
        -- destruct (u32_add md o pow) as [o'|]; cbn [bind]; [|reflexivity].
           rewrite (IH' tl2) by (cbn; lia). reflexivity.
      * destruct (node_span md D d1) as [s|]; cbn [bind]; [|reflexivity].
        destruct (u32_add md o s) as [o'|]; cbn [bind]; [|reflexivity].
        rewrite (IH' (ConcealedNode d2 h2 :: tl2)) by (cbn; lia). reflexivity.
    + cbn [conceal_pass pass1].
      destruct (node_span md D d1) as [s|]; cbn [bind]; [|reflexivity].
      destruct (u32_add md o s) as [o'|]; cbn [bind]; [|reflexivity].
      destruct (u32_add md o' 1) as [o''|]; cbn [bind]; [|reflexivity].
      rewrite (IH' tl2) by (cbn; lia).
      destruct (pass1 md D tl2 o'' c) as [[[r ro] rc]|]; reflexivity.
  - destruct tl as [|[d2 h2|p2 m2] tl2].
    + cbn. destruct (u32_add md o 1); reflexivity.
    + rewrite (pass_lc conceal_pass), (pass_lc pass1) by auto.
      destruct (u32_add md o 1) as [o'|]; cbn [bind]; [|reflexivity].
      rewrite (IH' (ConcealedNode d2 h2 :: tl2)) by (cbn; lia). reflexivity.
    + cbn [conceal_pass pass1]. rewrite u32_add_two.
      destruct (u32_add md o 1) as [o'|]; cbn [bind]; [|reflexivity].
      destruct (u32_add md o' 1) as [o''|]; cbn [bind]; [|reflexivity].
      rewrite (IH' tl2) by (cbn; lia).
      destruct (pass1 md D tl2 o'' c) as [[[r ro] rc]|]; reflexivity.
Qed.

(** ** Effect of one pass on a frontier *)
Definition is_conc (t : ptree) : bool := match t with PConc _ => true | _ => false end.

(** Every pair of concealed siblings is contracted once. *)
Fixpoint pstep (W : N) (d : nat) (t : ptree) : ptree :=
  match t with
  | PBr (PConc a) (PConc b) => PConc (HASH (s_branch d W a b))
  | PBr l r => PBr (pstep W (S d) l) (pstep W (S d) r)
  | _ => t
  end.

(** Number of contractions *)
Fixpoint pmerges (t : ptree) : N :=
  match t with
  | PBr (PConc a) (PConc b) => 1
  | PBr l r => pmerges l + pmerges r
  | _ => 0
  end%N.

Lemma pstep_br W d l r :
  is_conc l && is_conc r = false -> pstep W d (PBr l r) = PBr (pstep W (S d) l) (pstep W (S d) r).
Proof. destruct l, r; cbn; try reflexivity; discriminate. Qed.
Lemma pmerges_br l r :
  is_conc l && is_conc r = false -> pmerges (PBr l r) = (pmerges l + pmerges r)%N.
Proof. destruct l, r; cbn; try reflexivity; discriminate. Qed.

Definition sp (D d : nat) : N := (2 ^ N.of_nat (D - d))%N.

Lemma sp_pos D d : (0 < sp D d)%N.
Proof. unfold sp. apply N.neq_0_lt_0, N.pow_nonzero. lia. Qed.
Lemma sp_S D d : S d <= D -> sp D d = (2 * sp D (S d))%N.
Proof.
  intros L. unfold sp. replace (D - d) with (S (D - S d)) by lia.
  rewrite Nat2N.inj_succ, N.pow_succ_r'. reflexivity.
Qed.
Lemma sp_0 D : sp D 0 = width_of D.
Proof. unfold sp, width_of. rewrite Nat.sub_0_r. reflexivity. Qed.
Lemma sp_le D d : (sp D d <= sp D 0)%N.
Proof. unfold sp. apply N.pow_le_mono_r; lia. Qed.

Lemma node_span_ok md D d : D <= 31 -> d <= D -> node_span md D d = Ret (sp D d).
Proof.
  intros HD Hd. unfold node_span, u32_sub.
  replace (N.of_nat d <=? N.of_nat D)%N with true by (symmetry; apply N.leb_le; lia).
  cbn [bind]. unfold u32_pow2, sp.
  replace (N.of_nat D - N.of_nat d)%N with (N.of_nat (D - d)) by lia.
  replace (N.of_nat (D - d) <? 32)%N with true by (symmetry; apply N.ltb_lt; lia). reflexivity.
Qed.
Lemma u32_add_ok md a b : (a + b < 2 ^ 32)%N -> u32_add md a b = Ret (a + b)%N.
Proof.
  intros L. unfold u32_add, u32_lim.
  replace (a + b <? 2 ^ 32)%N with true by (symmetry; apply N.ltb_lt; exact L). reflexivity.
Qed.
Lemma sp_bound D d : D <= 31 -> (sp D d <= 2 ^ 31)%N.
Proof. intros HD. unfold sp. apply N.pow_le_mono_r; lia. Qed.

(** First node of the frontier of an inner node is not concealed at the node's own child
    depth unless it is a sibling pair... used as: the node after a concealed one. *)
Definition head_conc_at (d : nat) (xs : list tree_node) : bool :=
  match xs with ConcealedNode e _ :: _ => e =? d | _ => false end.

Lemma flatten_head d e t rest : d < e -> head_conc_at d (flatten e t ++ rest) = false.
Proof.
  revert e rest; induction t as [h|p m|l IHl r IHr]; intros e rest L; cbn.
  - apply Nat.eqb_neq. lia.
  - reflexivity.
  - rewrite <- app_assoc. apply IHl. lia.
Qed.
Lemma flatten_head_br d t rest : is_conc t = false -> head_conc_at d (flatten d t ++ rest) = false.
Proof.
  destruct t as [h|p m|l r]; cbn; intros E; [discriminate|reflexivity|].
  rewrite <- app_assoc. apply flatten_head. lia.
Qed.

(** A concealed node is skipped when the next is not its aligned sibling. *)
Lemma pass1_skip md D d h rest o c :
  D <= 31 -> 0 < d <= D -> (o + sp D d <= sp D 0)%N ->
  (head_conc_at d rest = false \/ (o mod sp D (d - 1) <> 0)%N) ->
  pass1 md D (ConcealedNode d h :: rest) o c =
  bind (pass1 md D rest (o + sp D d)%N c)
    (fun x => let '(r, o', c') := x in Ret (ConcealedNode d h :: r, o', c')).
Proof.
  intros HD Hd Ho Hc.
  assert (Hs : forall X, X = bind (node_span md D d) (fun s => bind (u32_add md o s) (fun o' =>
            bind (pass1 md D rest o' c)
              (fun x => let '(r, o', c') := x in Ret (ConcealedNode d h :: r, o', c')))) ->
          X = bind (pass1 md D rest (o + sp D d)%N c)
    (fun x => let '(r, o', c') := x in Ret (ConcealedNode d h :: r, o', c'))).
  { intros X ->. rewrite node_span_ok by lia. cbn [bind].
    rewrite u32_add_ok; [reflexivity|]. pose proof (sp_bound D 0 HD). lia. }
  apply Hs. cbn [pass1]. destruct rest as [|[d2 h2|p2 m2] rest2]; try reflexivity.
  destruct (d =? d2) eqn:E; [|reflexivity]. cbn in Hc. apply Nat.eqb_eq in E; subst d2.
  rewrite Nat.eqb_refl in Hc. destruct Hc as [Hc|Hc]; [discriminate|].
  unfold u5_sub. replace (1 <=? d) with true by (symmetry; apply Nat.leb_le; lia). cbn [bind].
  rewrite node_span_ok by lia. cbn [bind]. unfold u32_rem.
  replace (sp D (d - 1) =? 0)%N with false
    by (symmetry; apply N.eqb_neq; pose proof (sp_pos D (d - 1)); lia).
  cbn [bind]. replace ((o mod sp D (d - 1) =? 0)%N) with false by (symmetry; apply N.eqb_neq; exact Hc).
  reflexivity.
Qed.

(** Two concealed siblings are aggregated. *)
Lemma pass1_merge md D d a b rest o c :
  D <= 31 -> d <= D -> (o + sp D d <= sp D 0)%N -> (o mod sp D d = 0)%N ->
  pass1 md D (ConcealedNode (S d) a :: ConcealedNode (S d) b :: rest) o c =
  bind (pass1 md D rest (o + sp D d)%N (c + 1)%N)
    (fun x => let '(r, o', c') := x in
      Ret (ConcealedNode d (HASH (s_branch d (width_of D) a b)) :: r, o', c')).
Proof.
  intros HD Hd Ho Hm. cbn [pass1]. rewrite Nat.eqb_refl. unfold u5_sub.
  replace (1 <=? S d) with true by reflexivity. cbn [bind]. replace (S d - 1) with d by lia.
  rewrite node_span_ok by lia. cbn [bind]. unfold u32_rem.
  replace (sp D d =? 0)%N with false
    by (symmetry; apply N.eqb_neq; pose proof (sp_pos D d); lia).
  cbn [bind]. rewrite Hm. cbn [N.eqb negb].
  rewrite u32_add_ok; [reflexivity|]. pose proof (sp_bound D 0 HD). lia.
Qed.

Lemma aligned_S D d o : S d <= D -> (o mod sp D d = 0)%N -> (o mod sp D (S d) = 0)%N.
Proof.
  intros L E. rewrite (sp_S D d L) in E. pose proof (sp_pos D (S d)).
  apply N.mod_divide in E; [|lia]. apply N.mod_divide; [lia|].
  destruct E as [k E]. exists (k * 2)%N. lia.
Qed.
Lemma aligned_right D d o : S d <= D -> (o mod sp D d = 0)%N ->
  ((o + sp D (S d)) mod sp D (S d) = 0)%N /\ ((o + sp D (S d)) mod sp D d <> 0)%N.
Proof.
  intros L E. pose proof (aligned_S D d o L E) as E1. pose proof (sp_pos D (S d)).
  split.
  - rewrite <- N.add_mod_idemp_l by lia. rewrite E1, N.add_0_l. apply N.mod_same. lia.
  - rewrite <- N.add_mod_idemp_l by (pose proof (sp_pos D d); lia).
    rewrite E, N.add_0_l. rewrite N.mod_small; [lia|]. rewrite (sp_S D d L). lia.
Qed.

Lemma bind_assoc {A B C} (o : outcome A) (f : A -> outcome B) (g : B -> outcome C) :
  bind (bind o f) g = bind o (fun a => bind (f a) g).
Proof. destruct o; reflexivity. Qed.
Lemma bind_ext {A B} (o : outcome A) (f g : A -> outcome B) :
  (forall a, f a = g a) -> bind o f = bind o g.
Proof. intros E. destruct o; cbn; auto. Qed.

Lemma pass1_tree md D t d rest o c :
  D <= 31 -> pwf_loose D d t -> is_conc t = false ->
  (o mod sp D d = 0)%N -> (o + sp D d <= sp D 0)%N ->
  d <= D /\
  pass1 md D (flatten d t ++ rest) o c =
  bind (pass1 md D rest (o + sp D d)%N (c + pmerges t)%N)
    (fun x => let '(r, o', c') := x in Ret (flatten d (pstep (width_of D) d t) ++ r, o', c')).
Proof.
  intros HD. revert d rest o c.
  induction t as [h|p m|l IHl r IHr]; intros d rest o c Hw Hc Ha Ho.
  - discriminate.
  - cbn in Hw. subst d. split; [lia|]. cbn [flatten app pass1 pstep pmerges].
    assert (Hsp : sp D D = 1%N) by (unfold sp; rewrite Nat.sub_diag; reflexivity).
    rewrite Hsp in *. rewrite u32_add_ok by (pose proof (sp_bound D 0 HD); lia). cbn [bind].
    rewrite N.add_0_r. reflexivity.
  - cbn [pwf_loose] in Hw. destruct Hw as [Wl Wr].
    destruct (is_conc l && is_conc r) eqn:Elr.
    + destruct l as [a|?|?], r as [b|?|?]; try discriminate. clear IHl IHr Elr.
      cbn in Wl. split; [lia|]. cbn [flatten app pstep pmerges].
      apply pass1_merge; [exact HD|lia|exact Ho|exact Ha].
    + rewrite (pstep_br _ _ _ _ Elr), (pmerges_br _ _ Elr). cbn [flatten].
      rewrite <- app_assoc.
      (* the level below exists: otherwise both children are concealed *)
      assert (L : S d <= D).
      { assert (G : forall x, is_conc x = false -> pwf_loose D (S d) x -> S d <= D).
        { intros x Hx. destruct x as [?|?|x1 x2]; cbn; [discriminate|lia|].
          intros [A _]. clear -A. assert (B : forall y e, pwf_loose D e y -> e <= S D).
          { induction y as [?|?|y1 I1 y2 I2]; cbn; intros e; [lia|lia|]. intros [Q _]. apply I1 in Q. lia. }
          apply B in A. lia. }
        destruct (is_conc l) eqn:E1; [apply (G r); [exact Elr|exact Wr]|apply (G l); assumption]. }
      split; [lia|].
      pose proof (sp_S D d L) as HS. pose proof (sp_pos D (S d)) as HP.
      destruct (aligned_right D d o L Ha) as [Ar Ao].
      pose proof (aligned_S D d o L Ha) as Al.
      (* right part *)
      assert (HR : forall c, pass1 md D (flatten (S d) r ++ rest) (o + sp D (S d))%N c =
        bind (pass1 md D rest (o + sp D d)%N (c + pmerges r)%N)
          (fun x => let '(y, o', c') := x in
             Ret (flatten (S d) (pstep (width_of D) (S d) r) ++ y, o', c'))).
      { intros c0. replace (o + sp D d)%N with (o + sp D (S d) + sp D (S d))%N by lia.
        destruct (is_conc r) eqn:Er.
        - destruct r as [b|?|?]; try discriminate. cbn [flatten app pstep pmerges].
          rewrite N.add_0_r. apply pass1_skip; [exact HD|lia|lia|].
          right. replace (S d - 1) with d by lia. exact Ao.
        - apply IHr; [exact Wr|reflexivity|exact Ar|lia]. }
      destruct (is_conc l) eqn:El.
      * destruct l as [a|?|?]; try discriminate. cbn [flatten app].
        rewrite pass1_skip; [|exact HD|lia|lia|].
        -- rewrite HR. rewrite bind_assoc. cbn [pmerges]. rewrite N.add_0_l. apply bind_ext.
           intros [[y o'] c']. reflexivity.
        -- left. apply flatten_head_br. exact Elr.
      * destruct (IHl (S d) (flatten (S d) r ++ rest) o c Wl eq_refl Al) as [_ ->]; [lia|].
        rewrite HR. rewrite bind_assoc, N.add_assoc. apply bind_ext.
        intros [[y o'] c']. cbn [bind]. rewrite app_assoc. reflexivity.
Qed.

Lemma pass_root md D t c :
  D <= 31 -> pwf_loose D 0 t ->
  conceal_pass md D (flatten 0 t) 0 c =
  Ret (flatten 0 (pstep (width_of D) 0 t), width_of D, (c + pmerges t)%N).
Proof.
  intros HD Hw. rewrite pass_pass1. destruct (is_conc t) eqn:E.
  - destruct t as [h|?|?]; try discriminate. cbn [flatten pass1].
    rewrite node_span_ok by lia. cbn [bind]. rewrite u32_add_ok.
    + cbn [bind]. rewrite sp_0. cbn. rewrite N.add_0_r. reflexivity.
    + pose proof (sp_bound D 0 HD). lia.
  - rewrite <- (app_nil_r (flatten 0 t)).
    destruct (pass1_tree md D t 0 [] 0 c HD Hw E) as [_ ->].
    + rewrite N.mod_0_l by (pose proof (sp_pos D 0); lia). reflexivity.
    + lia.
    + cbn [pass1 bind]. rewrite sp_0, N.add_0_l, app_nil_r. reflexivity.
Qed.

(** ** Iterating passes *)
Definition pcoarse (W : N) (d : nat) (t : ptree) : ptree := prestrict (fun _ => true) W d t.

Lemma pstep_phash W d t : phash W d (pstep W d t) = phash W d t.
Proof.
  revert d; induction t as [h|p m|l IHl r IHr]; intros d; try reflexivity.
  destruct (is_conc l && is_conc r) eqn:E.
  - destruct l, r; try discriminate. reflexivity.
  - rewrite (pstep_br _ _ _ _ E). cbn. rewrite IHl, IHr. reflexivity.
Qed.
Lemma pstep_leaves W d t : pleaves (pstep W d t) = pleaves t.
Proof.
  revert d; induction t as [h|p m|l IHl r IHr]; intros d; try reflexivity.
  destruct (is_conc l && is_conc r) eqn:E.
  - destruct l, r; try discriminate. reflexivity.
  - rewrite (pstep_br _ _ _ _ E). cbn. rewrite IHl, IHr. reflexivity.
Qed.
Lemma pstep_coarse W d t : pcoarse W d (pstep W d t) = pcoarse W d t.
Proof.
  unfold pcoarse. revert d; induction t as [h|p m|l IHl r IHr]; intros d; try reflexivity.
  destruct (is_conc l && is_conc r) eqn:E.
  - destruct l, r; try discriminate. reflexivity.
  - rewrite (pstep_br _ _ _ _ E). cbn. rewrite !pstep_leaves, IHl, IHr, !pstep_phash. reflexivity.
Qed.
Lemma pstep_pwf_loose D W d t : pwf_loose D d t -> pwf_loose D d (pstep W d t).
Proof.
  revert d; induction t as [h|p m|l IHl r IHr]; intros d Hw; try exact Hw.
  destruct (is_conc l && is_conc r) eqn:E.
  - destruct l, r; try discriminate. cbn in *. lia.
  - rewrite (pstep_br _ _ _ _ E). cbn in *. destruct Hw. auto.
Qed.
Lemma pstep_length W d t :
  (N.of_nat (length (flatten d (pstep W d t))) + pmerges t = N.of_nat (length (flatten d t)))%N.
Proof.
  revert d; induction t as [h|p m|l IHl r IHr]; intros d; try reflexivity.
  destruct (is_conc l && is_conc r) eqn:E.
  - destruct l, r; try discriminate. reflexivity.
  - rewrite (pstep_br _ _ _ _ E), (pmerges_br _ _ E). cbn [flatten]. rewrite !app_length.
    specialize (IHl (S d)). specialize (IHr (S d)). lia.
Qed.
Lemma pmerges_maximal t : pmerges t = 0%N -> pmaximal t.
Proof.
  induction t as [h|p m|l IHl r IHr]; intros E; try exact I.
  destruct (is_conc l && is_conc r) eqn:E'.
  - destruct l, r; discriminate.
  - rewrite (pmerges_br _ _ E') in E. cbn. split; [apply IHl; lia|]. split; [apply IHr; lia|].
    destruct l, r; try exact I. discriminate.
Qed.
Lemma pmerges_step W d t : pmerges t = 0%N -> pstep W d t = t.
Proof.
  revert d; induction t as [h|p m|l IHl r IHr]; intros d E; try reflexivity.
  destruct (is_conc l && is_conc r) eqn:E'.
  - destruct l, r; discriminate.
  - rewrite (pmerges_br _ _ E') in E. rewrite (pstep_br _ _ _ _ E'), IHl, IHr by lia. reflexivity.
Qed.
Lemma pcoarse_maximal W d t : pmaximal t -> pcoarse W d t = t.
Proof. intros M. apply prestrict_id; [exact M|]. reflexivity. Qed.

Lemma conceal_loop_tree md D t c fuel :
  D <= 31 -> pwf_loose D 0 t -> length (flatten 0 t) < fuel ->
  conceal_loop fuel md D (flatten 0 t) c =
  Ret (flatten 0 (pcoarse (width_of D) 0 t),
       (c + (N.of_nat (length (flatten 0 t)) -
             N.of_nat (length (flatten 0 (pcoarse (width_of D) 0 t)))))%N).
Proof.
  intros HD. revert t c; induction fuel as [|fuel IH]; intros t c Hw Hf; [lia|].
  cbn [conceal_loop].
  assert (Hne : negb (match flatten 0 t with [] => true | _ => false end) = true).
  { pose proof (flatten_nonempty 0 t). destruct (flatten 0 t); [congruence|reflexivity]. }
  rewrite Hne. replace (debug_assert md true) with (Ret tt) by (destruct md; reflexivity).
  cbn [bind]. rewrite pass_root by assumption. cbn [bind].
  destruct (c + pmerges t =? c)%N eqn:E.
  - apply N.eqb_eq in E. assert (E0 : pmerges t = 0%N) by lia.
    rewrite (pmerges_step _ _ _ E0), (pcoarse_maximal _ _ _ (pmerges_maximal _ E0)), E0.
    do 2 f_equal. lia.
  - apply N.eqb_neq in E. rewrite N.eqb_refl.
    replace (debug_assert md true) with (Ret tt) by (destruct md; reflexivity). cbn [bind].
    pose proof (pstep_length (width_of D) 0 t) as HL.
    rewrite IH; [|apply pstep_pwf_loose; exact Hw|lia].
    rewrite pstep_coarse. do 2 f_equal.
    assert (HC : forall u d, length (flatten d (pcoarse (width_of D) d u)) <= length (flatten d u)).
    { clear. unfold pcoarse. induction u as [h|p m|l IHl r IHr]; intros d; cbn; try lia.
      destruct (existsb _ _); cbn; rewrite ?app_length.
      - specialize (IHl (S d)). specialize (IHr (S d)). lia.
      - pose proof (flatten_nonempty (S d) l). destruct (flatten (S d) l); [congruence|]. cbn. lia. }
    pose proof (HC (pstep (width_of D) 0 t) 0) as H1. rewrite pstep_coarse in H1. lia.
Qed.

(** ** Concealing leaves *)
Fixpoint pkeep (f : bytes32 -> bool) (t : ptree) : ptree :=
  match t with
  | PConc h => PConc h
  | PLeaf p m => if f p then PLeaf p m else PConc (HASH (s_leaf p m))
  | PBr l r => PBr (pkeep f l) (pkeep f r)
  end.

Lemma pkeep_leaves f t : pleaves (pkeep f t) = filter (fun e => f (fst e)) (pleaves t).
Proof.
  induction t as [h|p m|l IHl r IHr]; cbn; [reflexivity|destruct (f p); reflexivity|].
  rewrite filter_app, IHl, IHr. reflexivity.
Qed.
Lemma pkeep_phash f W d t : phash W d (pkeep f t) = phash W d t.
Proof.
  revert d; induction t as [h|p m|l IHl r IHr]; intros d; cbn; [reflexivity|destruct (f p); reflexivity|].
  rewrite IHl, IHr. reflexivity.
Qed.
Lemma pkeep_coarse f W d t : pcoarse W d (pkeep f t) = prestrict f W d t.
Proof.
  unfold pcoarse. revert d; induction t as [h|p m|l IHl r IHr]; intros d; cbn.
  - reflexivity.
  - destruct (f p); reflexivity.
  - rewrite !pkeep_leaves, <- filter_app, IHl, IHr, !pkeep_phash, existsb_filter.
    replace (existsb (fun x => f (fst x) && true) (pleaves l ++ pleaves r))
      with (existsb (fun x => f (fst x)) (pleaves l ++ pleaves r)); [reflexivity|].
    clear. induction (pleaves l ++ pleaves r) as [|e x IH]; cbn; [reflexivity|].
    rewrite andb_true_r, IH. reflexivity.
Qed.
Lemma pkeep_pwf f D d t : pwf D d t -> pwf D d (pkeep f t).
Proof.
  revert d; induction t as [h|p m|l IHl r IHr]; intros d; cbn; [auto|destruct (f p); cbn; lia|].
  intros [A B]. auto.
Qed.
Lemma pkeep_pwf_loose f D d t : pwf_loose D d t -> pwf_loose D d (pkeep f t).
Proof.
  revert d; induction t as [h|p m|l IHl r IHr]; intros d; cbn; [auto|destruct (f p); cbn; lia|].
  intros [A B]. auto.
Qed.
Lemma pkeep_length f d t : length (flatten d (pkeep f t)) = length (flatten d t).
Proof.
  revert d; induction t as [h|p m|l IHl r IHr]; intros d; cbn; [reflexivity|destruct (f p); reflexivity|].
  rewrite !app_length, IHl, IHr. reflexivity.
Qed.

Definition mem (ids : list bytes32) (p : bytes32) : bool := existsb (b32_eqb p) ids.
Lemma mem_In ids p : mem ids p = true <-> In p ids.
Proof.
  unfold mem. rewrite existsb_exists. split.
  - intros [x [H1 H2]]. apply b32_eqb_eq in H2. subst x. exact H1.
  - intros HI. exists p. split; [exact HI|apply b32_eqb_refl].
Qed.

(** List-level description of the leaf-concealing loop *)
Definition keep_node (D : nat) (ids : list bytes32) (n : tree_node) : tree_node :=
  match n with
  | CommitmentLeaf p m => if mem ids p then n else ConcealedNode D (HASH (s_leaf p m))
  | _ => n
  end.
Definition dropped (ids : list bytes32) (xs : list tree_node) : N :=
  N.of_nat (length (filter (fun e => negb (mem ids (fst e))) (known_leaves xs))).

Lemma conceal_leaves_spec D ids xs nf c :
  conceal_leaves D ids xs nf c =
  (map (keep_node D ids) xs,
   fold_left (fun s p => os_remove b32_ltb p s)
     (filter (mem ids) (map fst (known_leaves xs))) nf,
   (c + dropped ids xs)%N).
Proof.
  unfold dropped. revert nf c; induction xs as [|[d h|p m] xs IH]; intros nf c.
  - cbn. rewrite N.add_0_r. reflexivity.
  - cbn [conceal_leaves]. rewrite IH. reflexivity.
  - cbn [conceal_leaves known_leaves map filter fst]. change (existsb (b32_eqb p) ids) with (mem ids p).
    destruct (mem ids p) eqn:E.
    + rewrite IH. cbn [negb keep_node]. rewrite E. reflexivity.
    + rewrite IH. cbn [negb keep_node length]. rewrite E. f_equal. lia.
Qed.

Lemma keep_flatten D ids d t :
  pwf_loose D d t -> map (keep_node D ids) (flatten d t) = flatten d (pkeep (mem ids) t).
Proof.
  revert d; induction t as [h|p m|l IHl r IHr]; intros d; cbn.
  - reflexivity.
  - intros ->. destruct (mem ids p); reflexivity.
  - intros [A B]. rewrite map_app, IHl, IHr by assumption. reflexivity.
Qed.

Lemma os_removes_In ps nf x :
  os_sorted b32_ltb nf ->
  (In x (fold_left (fun s p => os_remove b32_ltb p s) ps nf) <-> In x nf /\ ~ In x ps) /\
  os_sorted b32_ltb (fold_left (fun s p => os_remove b32_ltb p s) ps nf).
Proof.
  revert nf; induction ps as [|p ps IH]; intros nf Hs; cbn.
  - split; [tauto|exact Hs].
  - pose proof (os_remove_sorted b32_ltb p nf Hs) as Hs'. destruct (IH _ Hs') as [A B].
    split; [|exact B]. rewrite A, (os_remove_In b32_ltb p nf x Hs). intuition congruence.
Qed.

(** Ids requested but not revealed *)
Definition missing (ids : list bytes32) (xs : list tree_node) : list bytes32 :=
  fold_left (fun s p => os_remove b32_ltb p s)
    (filter (mem ids) (map fst (known_leaves xs))) (os_of_list b32_ltb ids).

Lemma missing_In ids xs x :
  In x (missing ids xs) <-> In x ids /\ ~ In x (map fst (known_leaves xs)).
Proof.
  unfold missing. rewrite (proj1 (os_removes_In _ _ x (os_of_list_sorted b32_ltb ids))).
  rewrite (os_of_list_In b32_ltb), filter_In, mem_In. tauto.
Qed.
Lemma missing_sorted ids xs : os_sorted b32_ltb (missing ids xs).
Proof. apply (os_removes_In _ _ (b32_fill x00) (os_of_list_sorted b32_ltb ids)). Qed.

Lemma conceal_except_unfold md b ids :
  conceal_except md b ids =
  match missing ids (mb_cross_section b) with
  | p :: _ => Ret (with_cross_section b (map (keep_node (mb_depth b) ids) (mb_cross_section b)) None, Err p)
  | [] =>
      bind (conceal_loop (S (length (mb_cross_section b))) md (mb_depth b)
              (map (keep_node (mb_depth b) ids) (mb_cross_section b)) (dropped ids (mb_cross_section b)))
        (fun x => let '(xs', count') := x in Ret (with_cross_section b xs' None, Ok count'))
  end.
Proof.
  unfold conceal_except. rewrite conceal_leaves_spec. fold (missing ids (mb_cross_section b)).
  rewrite N.add_0_l. destruct (missing ids (mb_cross_section b)); [|reflexivity].
  rewrite map_length. reflexivity.
Qed.

Lemma missing_nil ids xs :
  missing ids xs = [] <-> (forall p, In p ids -> In p (map fst (known_leaves xs))).
Proof.
  split.
  - intros E p HI. destruct (in_dec b32_eq_dec p (map fst (known_leaves xs))) as [Y|N]; [exact Y|].
    assert (C : In p (missing ids xs)) by (apply missing_In; tauto). rewrite E in C. destruct C.
  - intros HI. destruct (missing ids xs) as [|p r] eqn:E; [reflexivity|].
    assert (C : In p (missing ids xs)) by (rewrite E; left; reflexivity).
    apply missing_In in C as [C1 C2]. exfalso. apply C2, HI, C1.
Qed.

(** Main result on [conceal_except]: success. *)
Theorem conceal_except_ok md b t ids :
  mb_depth b <= 31 -> mb_cross_section b = flatten 0 t -> pwf_loose (mb_depth b) 0 t ->
  (forall p, In p ids -> In p (map fst (pleaves t))) ->
  let t' := prestrict (mem ids) (width_of (mb_depth b)) 0 t in
  conceal_except md b ids =
  Ret (MBlock (mb_method b) (mb_depth b) (mb_cofactor b) (flatten 0 t') None,
       Ok (N.of_nat (length (filter (fun e => negb (mem ids (fst e))) (pleaves t))) +
           (N.of_nat (length (flatten 0 t)) - N.of_nat (length (flatten 0 t'))))%N).
Proof.
  intros HD Hx Hw Hin t'. rewrite conceal_except_unfold, Hx.
  replace (missing ids (flatten 0 t)) with (@nil bytes32)
    by (symmetry; apply missing_nil; rewrite known_leaves_flatten; exact Hin).
  rewrite keep_flatten by exact Hw.
  rewrite conceal_loop_tree; [|exact HD|apply pkeep_pwf_loose; exact Hw|rewrite pkeep_length; lia].
  cbn [bind]. rewrite pkeep_coarse, pkeep_length. unfold dropped. rewrite known_leaves_flatten.
  reflexivity.
Qed.

(** ... and failure. *)
Theorem conceal_except_err md b t ids p :
  mb_cross_section b = flatten 0 t -> pwf_loose (mb_depth b) 0 t ->
  In p ids -> ~ In p (map fst (pleaves t)) ->
  exists q,
    conceal_except md b ids =
      Ret (MBlock (mb_method b) (mb_depth b) (mb_cofactor b) (flatten 0 (pkeep (mem ids) t)) None, Err q)
    /\ In q ids /\ ~ In q (map fst (pleaves t))
    /\ (forall x, In x ids -> ~ In x (map fst (pleaves t)) -> x = q \/ b32_ltb q x = true).
Proof.
  intros Hx Hw Hin Hnot. rewrite conceal_except_unfold, Hx.
  pose proof (missing_sorted ids (flatten 0 t)) as Hs.
  pose proof (missing_In ids (flatten 0 t)) as HM. rewrite known_leaves_flatten in HM.
  destruct (missing ids (flatten 0 t)) as [|q r].
  - exfalso. apply (HM p). tauto.
  - exists q. split; [rewrite keep_flatten by exact Hw; reflexivity|].
    assert (Hq := proj1 (HM q) (or_introl eq_refl)). split; [tauto|]. split; [tauto|].
    intros x H1 H2. eapply os_head_least; [exact Hs|]. apply HM. tauto.
Qed.

(** Concealing everything gives the root. *)
Lemma prestrict_nil W d t : prestrict (mem []) W d t = PConc (phash W d t).
Proof.
  apply prestrict_none. induction (pleaves t) as [|e x IH]; cbn; [reflexivity|exact IH].
Qed.

Theorem block_conceal_ok md b t :
  mb_depth b <= 31 -> mb_cross_section b = flatten 0 t -> pwf_loose (mb_depth b) 0 t ->
  block_conceal md b = Ret (MConcealed (mb_depth b) (mb_cofactor b) (phash (width_of (mb_depth b)) 0 t)).
Proof.
  intros HD Hx Hw. unfold block_conceal.
  rewrite (conceal_except_ok md b t []); [|exact HD|exact Hx|exact Hw|intros p []].
  cbn [bind]. rewrite prestrict_nil. cbn [flatten mb_cross_section length Nat.eqb].
  replace (debug_assert md true) with (Ret tt) by (destruct md; reflexivity). reflexivity.
Qed.

Theorem block_commit_id_ok md b t :
  mb_depth b <= 31 -> mb_cross_section b = flatten 0 t -> pwf_loose (mb_depth b) 0 t ->
  block_commit_id md b = Ret (pcommit (mb_depth b) (mb_cofactor b) t).
Proof.
  intros HD Hx Hw. unfold block_commit_id. rewrite (block_conceal_ok md b t) by assumption.
  cbn [bind]. rewrite commit_spec. reflexivity.
Qed.

End Conceal.
