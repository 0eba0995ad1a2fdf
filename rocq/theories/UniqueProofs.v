(** Uniqueness of proofs and of maximally concealed blocks. *)
From Verif Require Import Base BaseFacts OrdMap MpcAtoms MpcTree MpcBlock.
From Verif Require Import SpecHash SpecTree SpecCommit SpecFull SpecBlock HashFacts TreeFacts ConcealProofs PathProofs.
Local Open Scope nat_scope.

Section Unique.
Context {H : Hasher}.

(** Siblings along a path are determined by the tree it belongs to. *)
Lemma path_compat_view W path : forall path' pos d p m p' m' s,
  length path = length path' ->
  pcompat W d (path_tree path pos p m) s -> pview W d (path_tree path' pos p' m') s ->
  path = path' /\ p = p' /\ m = m'.
Proof.
  induction path as [|h r IH]; intros [|h' r'] pos d p m p' m' s L C V; try discriminate.
  - cbn in V. destruct s; try contradiction. cbn in C. destruct C, V. subst. auto.
  - injection L as L. cbn [path_tree] in C, V. rewrite <- L in V.
    destruct (_ <=? pos)%N; cbn [pview] in V; destruct s as [|? ?|sl sr]; try contradiction;
      cbn [pcompat] in C; destruct V as [V1 V2], C as [C1 C2].
    + destruct (IH _ _ _ _ _ _ _ _ L C2 V2) as [-> [-> ->]]. cbn in V1, C1. subst. auto.
    + destruct (IH _ _ _ _ _ _ _ _ L C1 V1) as [-> [-> ->]].
      destruct sr; cbn in V2, C2; subst; auto.
Qed.

Lemma path_compat_path W path : forall path' pos d p m p' m',
  length path = length path' ->
  pcompat W d (path_tree path pos p m) (path_tree path' pos p' m') -> path = path' /\ p = p' /\ m = m'.
Proof.
  intros path' pos d p m p' m' L C. apply (path_compat_view W path path' pos d p m p' m' (path_tree path' pos p' m') L C).
  apply pview_refl.
Qed.

(** A maximal tree without leaves is one concealed node. *)
Lemma maximal_mute t : pmaximal t -> pleaves t = [] -> exists h, t = PConc h.
Proof.
  induction t as [h|p m|l IHl r IHr]; intros M E.
  - exists h. reflexivity.
  - discriminate.
  - cbn in M, E. destruct M as [M1 [M2 M3]]. apply app_eq_nil in E as [E1 E2].
    destruct (IHl M1 E1) as [h1 ->]. destruct (IHr M2 E2) as [h2 ->]. destruct M3.
Qed.

Lemma no_leaves_at D d o t : pleaves_at D d o t = [] -> pleaves t = [].
Proof. intros E. rewrite <- (pleaves_at_leaves D d o t), E. reflexivity. Qed.

Lemma no_members {A} (l : list A) : (forall x, ~ In x l) -> l = [].
Proof. destruct l as [|a l]; [reflexivity|]. intros N. destruct (N a). left. reflexivity. Qed.

Lemma maximal_unique W D a : forall b d o, pcompat W d a b -> pmaximal a -> pmaximal b -> pwf D d a -> pwf D d b ->
  (forall x, In x (pleaves_at D d o a) <-> In x (pleaves_at D d o b)) -> a = b.
Proof.
  induction a as [h|p m|l IHl r IHr]; intros b d o C Ma Mb Wa Wb S.
  - assert (E : pleaves_at D d o b = []).
    { apply no_members. intros x I. apply S in I. destruct I. }
    destruct (maximal_mute b Mb (no_leaves_at _ _ _ _ E)) as [h' ->]. cbn in C. congruence.
  - destruct b as [h|p' m'|l' r'].
    + exfalso. destruct (proj1 (S (o, (p, m)))). left. reflexivity.
    + cbn in C. destruct C as [-> ->]. reflexivity.
    + destruct C.
  - destruct b as [h|p' m'|l' r'].
    + exfalso. assert (E : pleaves_at D d o (PBr l r) = []).
      { apply no_members. intros x I. apply S in I. destruct I. }
      destruct (maximal_mute _ Ma (no_leaves_at _ _ _ _ E)) as [h' Q]. discriminate.
    + destruct C.
    + cbn [pcompat] in C. destruct C as [C1 C2]. cbn [pmaximal] in Ma, Mb.
      destruct Ma as [Ma1 [Ma2 _]], Mb as [Mb1 [Mb2 _]]. cbn [pwf] in Wa, Wb. destruct Wa as [Wa1 Wa2], Wb as [Wb1 Wb2].
      cbn [pleaves_at] in S.
      assert (R : forall t q e, pwf D (Datatypes.S d) t -> In (q, e) (pleaves_at D (Datatypes.S d) o t) -> (q < o + 2 ^ N.of_nat (D - Datatypes.S d))%N).
      { intros t q e Wt I. apply pleaves_at_range in I; [|exact Wt]. unfold sp in I. lia. }
      assert (R' : forall t q e, pwf D (Datatypes.S d) t -> In (q, e) (pleaves_at D (Datatypes.S d) (o + 2 ^ N.of_nat (D - Datatypes.S d)) t) ->
        (o + 2 ^ N.of_nat (D - Datatypes.S d) <= q)%N).
      { intros t q e Wt I. apply pleaves_at_range in I; [|exact Wt]. lia. }
      f_equal.
      * apply (IHl l' (Datatypes.S d) o); try assumption. intros [q e]. split; intros I.
        -- destruct (in_app_or _ _ _ (proj1 (S (q, e)) (in_or_app _ _ _ (or_introl I)))) as [J|J]; [exact J|].
           pose proof (R _ _ _ Wa1 I). pose proof (R' _ _ _ Wb2 J). lia.
        -- destruct (in_app_or _ _ _ (proj2 (S (q, e)) (in_or_app _ _ _ (or_introl I)))) as [J|J]; [exact J|].
           pose proof (R _ _ _ Wb1 I). pose proof (R' _ _ _ Wa2 J). lia.
      * apply (IHr r' (Datatypes.S d) (o + 2 ^ N.of_nat (D - Datatypes.S d))%N); try assumption. intros [q e]. split; intros I.
        -- destruct (in_app_or _ _ _ (proj1 (S (q, e)) (in_or_app _ _ _ (or_intror I)))) as [J|J]; [|exact J].
           pose proof (R' _ _ _ Wa2 I). pose proof (R _ _ _ Wb1 J). lia.
        -- destruct (in_app_or _ _ _ (proj2 (S (q, e)) (in_or_app _ _ _ (or_intror I)))) as [J|J]; [|exact J].
           pose proof (R' _ _ _ Wb2 I). pose proof (R _ _ _ Wa1 J). lia.
Qed.

(** Two compatible trees show the same thing at a position both reveal. *)
Lemma compat_leaf_at W D a : forall b d o q e e', pcompat W d a b -> pwf D d a -> pwf D d b ->
  In (q, e) (pleaves_at D d o a) -> In (q, e') (pleaves_at D d o b) -> e = e'.
Proof.
  induction a as [h|p m|l IHl r IHr]; intros b d o q e e' C Wa Wb I J.
  - destruct I.
  - destruct b as [h|p' m'|l' r']; [destruct J| |destruct C].
    cbn in C, I, J. destruct C as [-> ->], I as [I|[]], J as [J|[]]. congruence.
  - destruct b as [h|p' m'|l' r']; [destruct J|destruct C|].
    cbn [pcompat] in C. destruct C as [C1 C2]. cbn [pwf] in Wa, Wb. destruct Wa as [Wa1 Wa2], Wb as [Wb1 Wb2].
    cbn [pleaves_at] in I, J. apply in_app_or in I as [I|I]; apply in_app_or in J as [J|J].
    + exact (IHl _ _ _ _ _ _ C1 Wa1 Wb1 I J).
    + apply pleaves_at_range in I; [|exact Wa1]. apply pleaves_at_range in J; [|exact Wb2]. unfold sp in *. lia.
    + apply pleaves_at_range in I; [|exact Wa2]. apply pleaves_at_range in J; [|exact Wb1]. unfold sp in *. lia.
    + exact (IHr _ _ _ _ _ _ C2 Wa2 Wb2 I J).
Qed.

Lemma prestrict_ppre f W d t : incl (ppre W d (prestrict f W d t)) (ppre W d t).
Proof.
  revert d; induction t as [h|p m|l IHl r IHr]; intros d x I.
  - exact I.
  - cbn in I. destruct (f p); [exact I|destruct I].
  - cbn [prestrict] in I. destruct (existsb _ _); [|destruct I].
    cbn [ppre] in I |- *. rewrite !prestrict_phash in I. destruct I as [I|I]; [left; exact I|right].
    apply in_app_or in I. apply in_or_app. destruct I as [I|I]; [left; apply (IHl _ _ I)|right; apply (IHr _ _ I)].
Qed.

Lemma prestrict_leaves_at f W D d o t : forall q p m,
  In (q, (p, m)) (pleaves_at D d o (prestrict f W d t)) <-> In (q, (p, m)) (pleaves_at D d o t) /\ f p = true.
Proof.
  revert d o; induction t as [h|p m|l IHl r IHr]; intros d o q p' m'.
  - cbn. tauto.
  - cbn. destruct (f p) eqn:F; cbn.
    + split; [intros [I|[]]|intros [[I|[]] _]]; [|left; exact I].
      split; [left; exact I|]. injection I as _ <- _. exact F.
    + split; [intros []|]. intros [[I|[]] G]. injection I as _ <- _. congruence.
  - cbn [prestrict]. destruct (existsb _ _) eqn:E.
    + cbn [pleaves_at]. rewrite !in_app_iff, IHl, IHr. tauto.
    + cbn [pleaves_at]. split; [intros []|]. intros [I G]. exfalso.
      assert (X : existsb (fun e => f (fst e)) (pleaves (PBr l r)) = true); [|congruence].
      apply existsb_exists. exists (p', m'). split; [|exact G].
      rewrite <- (pleaves_at_leaves D d o). apply in_map_iff. exists (q, (p', m')). split; [reflexivity|].
      exact I.
Qed.

End Unique.
