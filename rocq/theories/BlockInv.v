(** Inversion of the aggregation loop: what a returned commitment says about an arbitrary
    (decoded) cross-section. *)
From Verif Require Import Base BaseFacts OrdMap OrdMapFacts SpecHash HashFacts Merkle MpcAtoms
  MpcTree MpcBlock SpecTree TreeFacts ConcealProofs.
Local Open Scope nat_scope.

Section Inv.
Context {H : Hasher}.

Lemma bind_inv {A B} (o : outcome A) (f : A -> outcome B) b :
  bind o f = Ret b -> exists a, o = Ret a /\ f a = Ret b.
Proof. destruct o as [a|p]; cbn; [eauto|discriminate]. Qed.

(** [ys] results from [xs] by contracting some adjacent concealed nodes of equal depth. *)
Inductive expand (W : N) : list tree_node -> list tree_node -> Prop :=
| ex_nil : expand W [] []
| ex_keep n xs ys : expand W xs ys -> expand W (n :: xs) (n :: ys)
| ex_merge d a b xs ys : expand W xs ys ->
    expand W (ConcealedNode (S d) a :: ConcealedNode (S d) b :: xs)
             (ConcealedNode d (HASH (s_branch d W a b)) :: ys).

Lemma pass1_expand md D xs o c ys o' c' :
  pass1 md D xs o c = Ret (ys, o', c') -> expand (width_of D) xs ys.
Proof.
  remember (length xs) as n eqn:En. revert xs o c ys o' c' En.
  induction n as [n IH] using (well_founded_induction lt_wf). intros xs o c ys o' c' -> E.
  assert (IH' : forall zs o c ys o' c', length zs < length xs ->
            pass1 md D zs o c = Ret (ys, o', c') -> expand (width_of D) zs ys)
    by (intros; eapply IH; [eassumption|reflexivity|eassumption]). clear IH.
  assert (SK : forall d h tl, xs = ConcealedNode d h :: tl ->
    (bind (node_span md D d) (fun s => bind (u32_add md o s) (fun o1 =>
            bind (pass1 md D tl o1 c)
              (fun x => let '(r, o', c') := x in Ret (ConcealedNode d h :: r, o', c'))))) = Ret (ys, o', c') ->
     expand (width_of D) xs ys).
  { intros d h tl -> E'. apply bind_inv in E' as [s [_ E']]. apply bind_inv in E' as [o1 [_ E']].
    apply bind_inv in E' as [[[r o2] c2] [E1 E']]. injection E' as <- <- <-.
    constructor. eapply IH'; [|exact E1]. cbn. lia. }
  destruct xs as [|[d1 h1|p m] tl].
  - injection E as <- _ _. constructor.
  - destruct tl as [|[d2 h2|p2 m2] tl2].
    + eapply SK; [reflexivity|exact E].
    + rewrite (pass_cc pass1) in E by auto. destruct (d1 =? d2) eqn:Ed.
      * apply Nat.eqb_eq in Ed; subst d2.
        apply bind_inv in E as [depth [E0 E]]. apply bind_inv in E as [pow [_ E]].
        apply bind_inv in E as [rem [_ E]]. destruct (negb (rem =? 0)%N).
        -- eapply SK; [reflexivity|exact E].
        -- apply bind_inv in E as [o1 [_ E]]. apply bind_inv in E as [[[r o2] c2] [E1 E]].
           injection E as <- <- <-. unfold u5_sub in E0. destruct d1 as [|d1]; [discriminate|].
           cbn in E0. rewrite Nat.sub_0_r in E0. injection E0 as <-.
           constructor. eapply IH'; [|exact E1]. cbn. lia.
      * eapply SK; [reflexivity|exact E].
    + eapply SK; [reflexivity|exact E].
  - cbn [pass1] in E. apply bind_inv in E as [o1 [_ E]].
    apply bind_inv in E as [[[r o2] c2] [E1 E]]. injection E as <- <- <-.
    constructor. eapply IH'; [|exact E1]. cbn. lia.
Qed.

Lemma expand_conc W xs d h ys :
  expand W xs (ConcealedNode d h :: ys) ->
  (exists xs', xs = ConcealedNode d h :: xs' /\ expand W xs' ys) \/
  (exists a b xs', xs = ConcealedNode (S d) a :: ConcealedNode (S d) b :: xs' /\
     h = HASH (s_branch d W a b) /\ expand W xs' ys).
Proof. intros X. inversion X; subst; [left|right]; eauto 10. Qed.
Lemma expand_leaf W xs p m ys :
  expand W xs (CommitmentLeaf p m :: ys) ->
  exists xs', xs = CommitmentLeaf p m :: xs' /\ expand W xs' ys.
Proof. intros X. inversion X; subst. eauto. Qed.

Lemma expand_flatten W xs ys t d rest :
  expand W xs ys -> ys = flatten d t ++ rest ->
  exists t' xs', xs = flatten d t' ++ xs' /\ phash W d t' = phash W d t /\ expand W xs' rest.
Proof.
  revert xs ys d rest; induction t as [h|p m|l IHl r IHr]; intros xs ys d rest X E; cbn in E.
  - subst ys. destruct (expand_conc _ _ _ _ _ X) as [[x [-> X']]|[a [b [x [-> [-> X']]]]]].
    + exists (PConc h), x. auto.
    + exists (PBr (PConc a) (PConc b)), x. cbn. auto.
  - subst ys. destruct (expand_leaf _ _ _ _ _ X) as [x [-> X']]. exists (PLeaf p m), x. auto.
  - rewrite <- app_assoc in E. destruct (IHl _ _ _ _ X E) as [l' [x1 [-> [Hl X1]]]].
    destruct (IHr _ _ _ _ X1 eq_refl) as [r' [x2 [-> [Hr X2]]]].
    exists (PBr l' r'), x2. cbn. rewrite Hl, Hr, app_assoc. auto.
Qed.

Lemma loop_inv fuel md D xs c ys c' t :
  conceal_loop fuel md D xs c = Ret (ys, c') -> ys = flatten 0 t ->
  exists t', xs = flatten 0 t' /\ phash (width_of D) 0 t' = phash (width_of D) 0 t.
Proof.
  revert xs c; induction fuel as [|fuel IH]; intros xs c E Ey; [discriminate|].
  cbn [conceal_loop] in E. apply bind_inv in E as [u [_ E]].
  apply bind_inv in E as [[[xs' o] c1] [E1 E]]. rewrite pass_pass1 in E1.
  pose proof (pass1_expand _ _ _ _ _ _ _ _ E1) as X.
  assert (G : exists t1, xs' = flatten 0 t1 /\ phash (width_of D) 0 t1 = phash (width_of D) 0 t).
  { destruct (c1 =? c)%N.
    - injection E as -> ->. exists t. auto.
    - apply bind_inv in E as [v [_ E]]. eapply IH; eassumption. }
  destruct G as [t1 [G1 G2]].
  destruct (expand_flatten _ _ _ t1 0 [] X) as [t' [x [-> [Hp X']]]]; [rewrite app_nil_r; exact G1|].
  inversion X'; subst. exists t'. rewrite app_nil_r. split; [reflexivity|congruence].
Qed.

(** Leaves sit at depth [D]. *)
Fixpoint leaves_deep (D d : nat) (t : ptree) : Prop :=
  match t with
  | PConc _ => True
  | PLeaf _ _ => d = D
  | PBr l r => leaves_deep D (S d) l /\ leaves_deep D (S d) r
  end.

Lemma keep_inv W D d xs t rest :
  map (keep_node D []) xs = flatten d t ++ rest ->
  exists t' xs', xs = flatten d t' ++ xs' /\ phash W d t' = phash W d t /\
    leaves_deep D d t' /\ map (keep_node D []) xs' = rest.
Proof.
  revert xs d rest; induction t as [h|p m|l IHl r IHr]; intros xs d rest E.
  - destruct xs as [|[e x|p m] xs]; cbn in E; [discriminate| |].
    + injection E as -> -> E. exists (PConc h), xs. cbn. auto.
    + injection E as Ed Eh E. subst. exists (PLeaf p m), xs. cbn. auto.
  - destruct xs as [|[e x|p' m'] xs]; cbn in E; discriminate.
  - cbn in E. rewrite <- app_assoc in E.
    destruct (IHl _ _ _ E) as [l' [x1 [-> [Hl [Ll E1]]]]].
    destruct (IHr _ _ _ E1) as [r' [x2 [-> [Hr [Lr E2]]]]].
    exists (PBr l' r'), x2. cbn. rewrite Hl, Hr, app_assoc. auto.
Qed.

(** Any build: a returned concealed value comes from a singleton only in builds with debug
    assertions. *)
Lemma block_conceal_debug b c :
  block_conceal Debug b = Ret c ->
  exists t, mb_cross_section b = flatten 0 t /\ leaves_deep (mb_depth b) 0 t /\
    c = MConcealed (mb_depth b) (mb_cofactor b) (phash (width_of (mb_depth b)) 0 t).
Proof.
  unfold block_conceal. rewrite conceal_except_unfold.
  assert (M : missing [] (mb_cross_section b) = []) by (apply missing_nil; intros p []).
  rewrite M. clear M. intros E. apply bind_inv in E as [[c1 r] [E1 E]].
  apply bind_inv in E1 as [[xs' n] [E1 E2]]. injection E2 as <- <-.
  apply bind_inv in E as [u [Eu E]]. unfold debug_assert in Eu. cbn [with_cross_section mb_cross_section] in *.
  destruct xs' as [|[[|d] h|p m] [|n2 xs']]; cbn in Eu; try discriminate.
  injection E as <-.
  destruct (loop_inv _ _ _ _ _ _ _ (PConc h) E1 eq_refl) as [t' [Ex Hp]].
  rewrite <- (app_nil_r (flatten 0 t')) in Ex.
  destruct (keep_inv (width_of (mb_depth b)) _ _ _ _ _ Ex) as [t [x [Et [Ht [Lt Er]]]]].
  destruct x; [|discriminate]. exists t. rewrite app_nil_r in Et. split; [exact Et|].
  split; [exact Lt|]. cbn in Hp. congruence.
Qed.

(** Debug: no concealed node lies deeper than one level below the leaves. *)
Definition shallow (D : nat) (n : tree_node) : Prop :=
  match n with ConcealedNode d _ => d <= S D | _ => True end.

Lemma node_span_debug D d s : node_span Debug D d = Ret s -> d <= D.
Proof.
  unfold node_span, u32_sub. destruct (N.of_nat d <=? N.of_nat D)%N eqn:E; [|discriminate].
  apply N.leb_le in E. intros _. lia.
Qed.
Lemma pass1_shallow D xs o c r : pass1 Debug D xs o c = Ret r -> Forall (shallow D) xs.
Proof.
  remember (length xs) as n eqn:En. revert xs o c r En.
  induction n as [n IH] using (well_founded_induction lt_wf). intros xs o c r -> E.
  assert (IH' : forall zs o c r, length zs < length xs ->
            pass1 Debug D zs o c = Ret r -> Forall (shallow D) zs)
    by (intros; eapply IH; [eassumption|reflexivity|eassumption]). clear IH.
  assert (SK : forall d h tl, xs = ConcealedNode d h :: tl ->
    (bind (node_span Debug D d) (fun s => bind (u32_add Debug o s) (fun o1 =>
            bind (pass1 Debug D tl o1 c)
              (fun x => let '(r, o', c') := x in Ret (ConcealedNode d h :: r, o', c'))))) = Ret r ->
     Forall (shallow D) xs).
  { intros d h tl -> E'. apply bind_inv in E' as [s [Es E']]. apply bind_inv in E' as [o1 [_ E']].
    apply bind_inv in E' as [[[r' o2] c2] [E1 E']]. apply node_span_debug in Es.
    constructor; [cbn; lia|]. eapply IH'; [|exact E1]. cbn. lia. }
  destruct xs as [|[d1 h1|p m] tl].
  - constructor.
  - destruct tl as [|[d2 h2|p2 m2] tl2].
    + eapply SK; [reflexivity|exact E].
    + rewrite (pass_cc pass1) in E by auto. destruct (d1 =? d2) eqn:Ed.
      * apply Nat.eqb_eq in Ed; subst d2.
        apply bind_inv in E as [depth [E0 E]]. apply bind_inv in E as [pow [Ep E]].
        apply bind_inv in E as [rem [_ E]]. destruct (negb (rem =? 0)%N).
        -- eapply SK; [reflexivity|exact E].
        -- apply bind_inv in E as [o1 [_ E]]. apply bind_inv in E as [[[r' o2] c2] [E1 E]].
           unfold u5_sub in E0. destruct d1 as [|d1]; [discriminate|].
           cbn in E0. rewrite Nat.sub_0_r in E0. injection E0 as <-. apply node_span_debug in Ep.
           constructor; [cbn; lia|]. constructor; [cbn; lia|]. eapply IH'; [|exact E1]. cbn. lia.
      * eapply SK; [reflexivity|exact E].
    + eapply SK; [reflexivity|exact E].
  - cbn [pass1] in E. apply bind_inv in E as [o1 [_ E]].
    apply bind_inv in E as [[[r' o2] c2] [E1 E]].
    constructor; [exact I|]. eapply IH'; [|exact E1]. cbn. lia.
Qed.

Lemma shallow_pwf D d t :
  Forall (shallow D) (flatten d t) -> leaves_deep D d t -> pwf_loose D d t.
Proof.
  revert d; induction t as [h|p m|l IHl r IHr]; intros d F L; cbn in *.
  - inversion F; subst. exact H2.
  - exact L.
  - apply Forall_app in F as [F1 F2]. destruct L. auto.
Qed.

Theorem block_commit_id_debug_inv b c :
  block_commit_id Debug b = Ret c ->
  exists t, mb_cross_section b = flatten 0 t /\ pwf_loose (mb_depth b) 0 t /\
    c = pcommit (mb_depth b) (mb_cofactor b) t.
Proof.
  unfold block_commit_id. intros E. apply bind_inv in E as [mc [E1 E]]. injection E as <-.
  destruct (block_conceal_debug _ _ E1) as [t [Ex [Lt ->]]]. exists t. split; [exact Ex|].
  split; [|apply commit_spec]. apply shallow_pwf; [|exact Lt].
  (* the first pass visits every node *)
  unfold block_conceal in E1. rewrite conceal_except_unfold in E1.
  assert (M : missing [] (mb_cross_section b) = []) by (apply missing_nil; intros p []).
  rewrite M in E1. apply bind_inv in E1 as [[c1 r] [E1 _]].
  apply bind_inv in E1 as [[xs' n] [E1 _]]. cbn [conceal_loop] in E1.
  apply bind_inv in E1 as [u [_ E1]]. apply bind_inv in E1 as [[[ys o] c2] [E1 _]].
  rewrite pass_pass1 in E1. apply pass1_shallow in E1. rewrite <- Ex. clear -E1.
  induction (mb_cross_section b) as [|[d h|p m] xs IH]; cbn in *; [constructor| |];
    inversion E1; subst; constructor; auto. exact I.
Qed.

(** C17 *)
Theorem block_commit_id_debug_iff b c :
  mb_depth b <= 31 ->
  block_commit_id Debug b = Ret c <->
  exists t, mb_cross_section b = flatten 0 t /\ pwf_loose (mb_depth b) 0 t /\
    c = pcommit (mb_depth b) (mb_cofactor b) t.
Proof.
  intros HD. split; [apply block_commit_id_debug_inv|].
  intros [t [Ex [Hw ->]]]. apply block_commit_id_ok; assumption.
Qed.

(** Release: what is known there. The cross-section starts with a frontier. *)
Lemma block_conceal_any md b c :
  block_conceal md b = Ret c ->
  exists t rest, mb_cross_section b = flatten 0 t ++ rest /\ leaves_deep (mb_depth b) 0 t /\
    c = MConcealed (mb_depth b) (mb_cofactor b) (phash (width_of (mb_depth b)) 0 t).
Proof.
  unfold block_conceal. rewrite conceal_except_unfold.
  assert (M : missing [] (mb_cross_section b) = []) by (apply missing_nil; intros p []).
  rewrite M. clear M. intros E. apply bind_inv in E as [[c1 r] [E1 E]].
  apply bind_inv in E1 as [[xs' n] [E1 E2]]. injection E2 as <- <-.
  apply bind_inv in E as [u [Eu E]]. clear Eu. cbn [with_cross_section mb_cross_section] in *.
  destruct xs' as [|[[|d] h|p m] xs']; try discriminate.
  injection E as <-.
  assert (G : forall fuel xs c ys c' t rest,
    conceal_loop fuel md (mb_depth b) xs c = Ret (ys, c') -> ys = flatten 0 t ++ rest ->
    exists t' rest', xs = flatten 0 t' ++ rest' /\
       phash (width_of (mb_depth b)) 0 t' = phash (width_of (mb_depth b)) 0 t).
  { clear. induction fuel as [|fuel IH]; intros xs c ys c' t rest E Ey; [discriminate|].
    cbn [conceal_loop] in E. apply bind_inv in E as [u [_ E]].
    apply bind_inv in E as [[[xs' o] c1] [E1 E]]. rewrite pass_pass1 in E1.
    pose proof (pass1_expand _ _ _ _ _ _ _ _ E1) as X.
    assert (G : exists t1 r1, xs' = flatten 0 t1 ++ r1 /\
      phash (width_of (mb_depth b)) 0 t1 = phash (width_of (mb_depth b)) 0 t).
    { destruct (c1 =? c)%N.
      - injection E as -> ->. exists t, rest. auto.
      - apply bind_inv in E as [v [_ E]]. eapply IH; eassumption. }
    destruct G as [t1 [r1 [G1 G2]]].
    destruct (expand_flatten _ _ _ t1 0 r1 X G1) as [t' [x [-> [Hp X']]]].
    exists t', x. split; [reflexivity|congruence]. }
  destruct (G _ _ _ _ _ (PConc h) xs' E1 eq_refl) as [t' [rest' [Ex Hp]]].
  destruct (keep_inv (width_of (mb_depth b)) _ _ _ _ _ Ex) as [t [x [Et [Ht [Lt Er]]]]].
  exists t, x. split; [exact Et|]. split; [exact Lt|]. cbn in Hp. congruence.
Qed.

End Inv.
