(** Any build: a returned commitment is that of a complete tree whose frontier starts the
    cross-section; the tree and the remainder are determined by the cross-section. *)
From Verif Require Import Base BaseFacts OrdMap OrdMapFacts SpecHash HashFacts Merkle MpcAtoms
  MpcTree MpcBlock SpecTree SpecValid TreeFacts ConcealProofs BlockInv.
Local Open Scope nat_scope.

(** A frontier is no proper prefix of another one. *)
Lemma flatten_prefix_unique D d t1 t2 r1 r2 :
  leaves_deep D d t1 -> leaves_deep D d t2 -> flatten d t1 ++ r1 = flatten d t2 ++ r2 -> t1 = t2 /\ r1 = r2.
Proof.
  assert (HB : forall l e f h x y, flatten e l ++ x = ConcealedNode f h :: y -> e <= f).
  { induction l as [h|p m|l IHl r IHr]; cbn; intros e f h' x y E.
    - injection E as <- _ _. lia.
    - discriminate.
    - rewrite <- app_assoc in E. apply IHl in E. lia. }
  assert (HL : forall l e p m x y, leaves_deep D e l -> flatten e l ++ x = CommitmentLeaf p m :: y -> e <= D).
  { induction l as [h|p m|l IHl r IHr]; cbn; intros e p' m' x y L E.
    - discriminate.
    - lia.
    - rewrite <- app_assoc in E. apply IHl in E; [lia|tauto]. }
  revert d t2 r1 r2; induction t1 as [h|p m|l IHl r IHr]; intros d t2 r1 r2 W1 W2 E.
  - destruct t2 as [h'|p' m'|l' r']; cbn in *.
    + injection E as -> ->. split; reflexivity.
    + discriminate.
    + rewrite <- app_assoc in E. symmetry in E. apply HB in E; lia.
  - destruct t2 as [h'|p' m'|l' r']; cbn in *.
    + discriminate.
    + injection E as -> -> ->. split; reflexivity.
    + rewrite <- app_assoc in E. symmetry in E. apply HL in E; [lia|tauto].
  - destruct t2 as [h'|p' m'|l' r']; cbn in *.
    + rewrite <- app_assoc in E. apply HB in E; lia.
    + rewrite <- app_assoc in E. apply HL in E; [lia|tauto].
    + rewrite <- !app_assoc in E. apply IHl in E as [-> E]; [|tauto|tauto].
      apply IHr in E as [-> ->]; [|tauto|tauto]. split; reflexivity.
Qed.


Definition node_bound (n : tree_node) : Prop := match n with ConcealedNode d _ => d <= 32 | _ => True end.

Lemma node_span_nonzero md D d s : D <= 31 -> d <= 32 -> node_span md D d = Ret s -> s <> 0%N -> d <= D.
Proof.
  intros HD Hd E NZ. destruct (le_lt_dec d D) as [L|L]; [exact L|exfalso].
  unfold node_span, u32_sub in E. destruct (N.of_nat d <=? N.of_nat D)%N eqn:X; [apply N.leb_le in X; lia|].
  destruct md; [discriminate|]. cbn [bind] in E. unfold u32_pow2 in E.
  destruct (_ <? _)%N eqn:Y in E.
  - apply N.ltb_lt in Y. change u32_lim with 4294967296%N in Y. lia.
  - injection E as <-. apply NZ. reflexivity.
Qed.

Section Inv.
Context {H : Hasher}.

(** [ys] results from [xs] by contracting some adjacent concealed nodes into nodes not below
    depth [D]. *)
Inductive expand_in (W : N) (D : nat) : list tree_node -> list tree_node -> Prop :=
| ei_nil : expand_in W D [] []
| ei_keep n xs ys : expand_in W D xs ys -> expand_in W D (n :: xs) (n :: ys)
| ei_merge d a b xs ys : d <= D -> expand_in W D xs ys ->
    expand_in W D (ConcealedNode (S d) a :: ConcealedNode (S d) b :: xs)
             (ConcealedNode d (HASH (s_branch d W a b)) :: ys).

Lemma expand_in_bound W D xs ys : expand_in W D xs ys -> D <= 31 -> Forall node_bound xs -> Forall node_bound ys.
Proof.
  induction 1 as [|n xs ys X IH|d a b xs ys L X IH]; intros HD F; [exact F| |].
  - apply Forall_cons_iff in F as [F1 F2]. constructor; auto.
  - apply Forall_cons_iff in F as [F1 F2]. apply Forall_cons_iff in F2 as [_ F2].
    constructor; [cbn; lia|auto].
Qed.

Lemma pass1_expand_in md D xs o c ys o' c' :
  D <= 31 -> Forall node_bound xs ->
  pass1 md D xs o c = Ret (ys, o', c') -> expand_in (width_of D) D xs ys.
Proof.
  intros HD. remember (length xs) as n eqn:En. revert xs o c ys o' c' En.
  induction n as [n IH] using (well_founded_induction lt_wf). intros xs o c ys o' c' -> Fb E.
  assert (IH' : forall zs o c ys o' c', length zs < length xs -> Forall node_bound zs ->
            pass1 md D zs o c = Ret (ys, o', c') -> expand_in (width_of D) D zs ys)
    by (intros; eapply IH; [eassumption|reflexivity|eassumption|eassumption]). clear IH.
  assert (SK : forall d h tl, xs = ConcealedNode d h :: tl ->
    (bind (node_span md D d) (fun s => bind (u32_add md o s) (fun o1 =>
            bind (pass1 md D tl o1 c)
              (fun x => let '(r, o', c') := x in Ret (ConcealedNode d h :: r, o', c'))))) = Ret (ys, o', c') ->
     expand_in (width_of D) D xs ys).
  { intros d h tl -> E'. apply bind_inv in E' as [s [_ E']]. apply bind_inv in E' as [o1 [_ E']].
    apply bind_inv in E' as [[[r o2] c2] [E1 E']]. injection E' as <- <- <-.
    constructor. eapply IH'; [| |exact E1]; [cbn; lia|]. inversion Fb; subst; assumption. }
  destruct xs as [|[d1 h1|p m] tl].
  - injection E as <- _ _. constructor.
  - destruct tl as [|[d2 h2|p2 m2] tl2].
    + eapply SK; [reflexivity|exact E].
    + rewrite (pass_cc pass1) in E by auto. destruct (d1 =? d2) eqn:Ed.
      * apply Nat.eqb_eq in Ed; subst d2.
        apply bind_inv in E as [depth [E0 E]]. apply bind_inv in E as [pow [Ep E]].
        apply bind_inv in E as [rem [Er E]]. destruct (negb (rem =? 0)%N).
        -- eapply SK; [reflexivity|exact E].
        -- apply bind_inv in E as [o1 [_ E]]. apply bind_inv in E as [[[r o2] c2] [E1 E]].
           injection E as <- <- <-. unfold u5_sub in E0. destruct d1 as [|d1]; [discriminate|].
           cbn in E0. rewrite Nat.sub_0_r in E0. injection E0 as <-.
           inversion Fb as [|? ? Fb1 Fb2]; subst. inversion Fb2; subst.
           constructor; [|eapply IH'; [| |exact E1]; [cbn; lia|assumption]].
           eapply node_span_nonzero; [exact HD| |exact Ep|]; [cbn in Fb1; lia|].
           intros ->. unfold u32_rem in Er. discriminate.
      * eapply SK; [reflexivity|exact E].
    + eapply SK; [reflexivity|exact E].
  - cbn [pass1] in E. apply bind_inv in E as [o1 [_ E]].
    apply bind_inv in E as [[[r o2] c2] [E1 E]]. injection E as <- <- <-.
    constructor. eapply IH'; [| |exact E1]; [cbn; lia|]. inversion Fb; subst; assumption.
Qed.

(** Concealed nodes at most one level below [D]. *)
Fixpoint pshallow (D d : nat) (t : ptree) : Prop :=
  match t with
  | PConc _ => d <= S D
  | PLeaf _ _ => True
  | PBr l r => pshallow D (S d) l /\ pshallow D (S d) r
  end.

Lemma expand_in_flatten W D xs ys t d rest :
  expand_in W D xs ys -> ys = flatten d t ++ rest -> pshallow D d t ->
  exists t' xs', xs = flatten d t' ++ xs' /\ phash W d t' = phash W d t /\ pshallow D d t' /\ expand_in W D xs' rest.
Proof.
  revert xs ys d rest; induction t as [h|p m|l IHl r IHr]; intros xs ys d rest X E P; cbn in E.
  - subst ys. inversion X; subst.
    + exists (PConc h), xs0. auto.
    + exists (PBr (PConc a) (PConc b)), xs0. cbn in *. split; [reflexivity|]. split; [reflexivity|].
      split; [lia|assumption].
  - subst ys. inversion X; subst. exists (PLeaf p m), xs0. auto.
  - rewrite <- app_assoc in E. destruct P as [Pl Pr]. destruct (IHl _ _ _ _ X E Pl) as [l' [x1 [-> [Hl [Sl X1]]]]].
    destruct (IHr _ _ _ _ X1 eq_refl Pr) as [r' [x2 [-> [Hr [Sr X2]]]]].
    exists (PBr l' r'), x2. cbn. rewrite Hl, Hr, app_assoc. auto.
Qed.

Lemma keep_inv_in W D d xs t rest :
  map (keep_node D []) xs = flatten d t ++ rest -> pshallow D d t ->
  exists t' xs', xs = flatten d t' ++ xs' /\ phash W d t' = phash W d t /\ pwf_loose D d t'.
Proof.
  assert (G : forall t xs d rest, map (keep_node D []) xs = flatten d t ++ rest -> pshallow D d t ->
    exists t' xs', xs = flatten d t' ++ xs' /\ phash W d t' = phash W d t /\ pwf_loose D d t' /\
      map (keep_node D []) xs' = rest).
  { clear. induction t as [h|p m|l IHl r IHr]; intros xs d rest E P.
    - destruct xs as [|[e x|p m] xs]; cbn in E; [discriminate| |].
      + injection E as -> -> E. exists (PConc h), xs. cbn. auto.
      + injection E as Ed Eh E. subst. exists (PLeaf p m), xs. cbn. auto.
    - destruct xs as [|[e x|p' m'] xs]; cbn in E; discriminate.
    - cbn in E. rewrite <- app_assoc in E. destruct P as [Pl Pr].
      destruct (IHl _ _ _ E Pl) as [l' [x1 [-> [Hl [Ll E1]]]]].
      destruct (IHr _ _ _ E1 Pr) as [r' [x2 [-> [Hr [Lr E2]]]]].
      exists (PBr l' r'), x2. cbn. rewrite Hl, Hr, app_assoc. auto. }
  intros E P. destruct (G _ _ _ _ E P) as [t' [xs' [A [B [C _]]]]]. eauto.
Qed.

Lemma block_commit_prefix md b c :
  mb_depth b <= 31 -> Forall valid_tree_node (mb_cross_section b) ->
  block_commit_id md b = Ret c ->
  exists t rest, mb_cross_section b = flatten 0 t ++ rest /\ pwf_loose (mb_depth b) 0 t /\
    c = pcommit (mb_depth b) (mb_cofactor b) t.
Proof.
  intros HD V. unfold block_commit_id, block_conceal. intros E. apply bind_inv in E as [mc [E0 E]]. injection E as <-.
  rewrite conceal_except_unfold in E0.
  assert (M : missing [] (mb_cross_section b) = []) by (apply missing_nil; intros p []).
  rewrite M in E0. clear M. apply bind_inv in E0 as [[c1 r] [E1 E]].
  apply bind_inv in E1 as [[xs' n] [E1 E2]]. injection E2 as <- <-.
  apply bind_inv in E as [u [Eu E]]. clear Eu. cbn [with_cross_section mb_cross_section] in *.
  destruct xs' as [|[[|d] h|p m] xs']; try discriminate.
  injection E as <-.
  assert (Vb : Forall node_bound (map (keep_node (mb_depth b) []) (mb_cross_section b))).
  { apply Forall_map. eapply Forall_impl; [|exact V]. intros [d h'|p m]; cbn; [lia|]. intros _. lia. }
  assert (G : forall fuel xs c ys c' t rest, Forall node_bound xs ->
    conceal_loop fuel md (mb_depth b) xs c = Ret (ys, c') -> ys = flatten 0 t ++ rest -> pshallow (mb_depth b) 0 t ->
    exists t' rest', xs = flatten 0 t' ++ rest' /\ pshallow (mb_depth b) 0 t' /\
       phash (width_of (mb_depth b)) 0 t' = phash (width_of (mb_depth b)) 0 t).
  { clear -HD. induction fuel as [|fuel IH]; intros xs c ys c' t rest F E Ey P; [discriminate|].
    cbn [conceal_loop] in E. apply bind_inv in E as [u [_ E]].
    apply bind_inv in E as [[[xs' o] c1] [E1 E]]. rewrite pass_pass1 in E1.
    pose proof (pass1_expand_in _ _ _ _ _ _ _ _ HD F E1) as X.
    assert (G : exists t1 r1, xs' = flatten 0 t1 ++ r1 /\ pshallow (mb_depth b) 0 t1 /\
      phash (width_of (mb_depth b)) 0 t1 = phash (width_of (mb_depth b)) 0 t).
    { destruct (c1 =? c)%N.
      - injection E as -> ->. exists t, rest. auto.
      - apply bind_inv in E as [v [_ E]]. eapply IH; [|eassumption|eassumption|assumption].
        eapply expand_in_bound; eassumption. }
    destruct G as [t1 [r1 [G1 [G2 G3]]]].
    destruct (expand_in_flatten _ _ _ _ t1 0 r1 X G1 G2) as [t' [x [-> [Hp [Sp X']]]]].
    exists t', x. split; [reflexivity|]. split; [exact Sp|congruence]. }
  destruct (G _ _ _ _ _ (PConc h) xs' Vb E1 eq_refl ltac:(cbn; lia)) as [t' [rest' [Ex [Sp Hp]]]].
  destruct (keep_inv_in (width_of (mb_depth b)) _ _ _ _ _ Ex Sp) as [t [x [Et [Ht Lt]]]].
  exists t, x. split; [exact Et|]. split; [exact Lt|]. rewrite commit_spec. cbn in Hp. rewrite <- Hp, <- Ht. reflexivity.
Qed.
End Inv.
