(** Facts about sorted association lists. *)
From Verif Require Import Base BaseFacts OrdMap.
From Coq Require Import Permutation.

Section MapFacts.
  Context {K V : Type} (ltb : K -> K -> bool) {HO : StrictOrd ltb}.
  Implicit Types (m : list (K * V)) (k : K) (v : V).

  Notation insert := (om_insert ltb).
  Notation get := (om_get ltb).
  Notation sorted := (om_sorted ltb).

  Lemma ltb_asym a b : ltb a b = true -> ltb b a = false.
  Proof.
    intros H. destruct (ltb b a) eqn:E; [|reflexivity].
    pose proof (so_trans _ _ _ H E) as C. rewrite so_irrefl in C. discriminate.
  Qed.

  Lemma om_insert_old k v m : fst (insert k v m) = get k m.
  Proof.
    induction m as [|[k' v'] r IH]; cbn; [reflexivity|].
    destruct (ltb k k'); [reflexivity|]. destruct (ltb k' k); [|reflexivity].
    destruct (insert k v r) as [o r']; exact IH.
  Qed.

  Lemma om_get_insert_eq k v m : get k (snd (insert k v m)) = Some v.
  Proof.
    induction m as [|[k' v'] r IH]; cbn.
    - rewrite so_irrefl. reflexivity.
    - destruct (ltb k k') eqn:E1; cbn.
      + rewrite so_irrefl. reflexivity.
      + destruct (ltb k' k) eqn:E2; cbn.
        * destruct (insert k v r) as [o r']; cbn in *. rewrite E1, E2. exact IH.
        * rewrite so_irrefl. reflexivity.
  Qed.

  Lemma om_get_insert_neq k k2 v m : k <> k2 -> get k2 (snd (insert k v m)) = get k2 m.
  Proof.
    intros N. induction m as [|[k' v'] r IH]; cbn.
    - destruct (ltb k2 k) eqn:E1; [reflexivity|]. destruct (ltb k k2) eqn:E2; [reflexivity|].
      exfalso; apply N. apply so_total; assumption.
    - destruct (ltb k k') eqn:E1; cbn.
      + destruct (ltb k2 k) eqn:E3; cbn.
        * rewrite (so_trans _ _ _ E3 E1). reflexivity.
        * destruct (ltb k k2) eqn:E4; [reflexivity|].
          exfalso; apply N. apply so_total; assumption.
      + destruct (ltb k' k) eqn:E2; cbn.
        * destruct (insert k v r) as [o r']; cbn in *. rewrite IH. reflexivity.
        * assert (k = k') by (apply so_total; assumption). subst k'.
          destruct (ltb k2 k) eqn:E3; [reflexivity|].
          destruct (ltb k k2) eqn:E4; [reflexivity|].
          exfalso; apply N. apply so_total; assumption.
  Qed.

  Lemma om_sorted_cons k v m :
    sorted ((k, v) :: m) = true <->
    (forall k' v', In (k', v') m -> ltb k k' = true) /\ sorted m = true.
  Proof.
    revert k v; induction m as [|[k1 v1] r IH]; intros k v.
    - cbn. split; [intros _; split; [tauto|reflexivity]|reflexivity].
    - change (sorted ((k, v) :: (k1, v1) :: r)) with (ltb k k1 && sorted ((k1, v1) :: r)).
      rewrite andb_true_iff, (IH k1 v1). split.
      + intros [H1 [H2 H3]]. split; [|split; assumption].
        intros k' v' [H|H]; [injection H as <- <-; exact H1|].
        eapply so_trans; [exact H1|]. eapply H2; eassumption.
      + intros [H1 [H2 H3]]. split; [|split; assumption].
        eapply H1. left; reflexivity.
  Qed.

  Lemma om_insert_In k v m x :
    In x (snd (insert k v m)) -> x = (k, v) \/ In x m.
  Proof.
    induction m as [|[k' v'] r IH]; cbn.
    - intros [H|[]]; left; symmetry; exact H.
    - destruct (ltb k k'); cbn.
      + intros [H|H]; [left; symmetry; exact H|right; exact H].
      + destruct (ltb k' k).
        * destruct (insert k v r) as [o r']; cbn in *. intros [H|H]; [right; left; exact H|].
          destruct (IH H); [left|right; right]; assumption.
        * cbn. intros [H|H]; [left; symmetry; exact H|right; right; exact H].
  Qed.

  Lemma om_sorted_insert k v m : sorted m = true -> sorted (snd (insert k v m)) = true.
  Proof.
    induction m as [|[k' v'] r IH]; intros Hs; [reflexivity|].
    cbn [om_insert]. destruct (ltb k k') eqn:E1; [|destruct (ltb k' k) eqn:E2].
    - cbn [snd]. apply om_sorted_cons. split; [|exact Hs].
      apply om_sorted_cons in Hs as [H1 H2].
      intros k2 v2 [H|H]; [injection H as <- <-; exact E1|].
      eapply so_trans; [exact E1|]. eapply H1; eassumption.
    - apply om_sorted_cons in Hs as [H1 H2]. specialize (IH H2).
      pose proof (om_insert_In k v r) as HI.
      destruct (insert k v r) as [o r']; cbn [snd] in *. apply om_sorted_cons. split; [|exact IH].
      intros k2 v2 H. destruct (HI _ H) as [H'|H'].
      + injection H' as -> ->. exact E2.
      + eapply H1; eassumption.
    - cbn [snd]. assert (k = k') by (apply so_total; assumption). subst k'.
      apply om_sorted_cons in Hs. apply om_sorted_cons. exact Hs.
  Qed.

  Lemma om_get_In k v m : get k m = Some v -> In (k, v) m.
  Proof.
    induction m as [|[k' v'] r IH]; cbn; [discriminate|].
    destruct (ltb k k') eqn:E1; [discriminate|]. destruct (ltb k' k) eqn:E2.
    - intros H; right; apply IH; exact H.
    - intros H. injection H as ->. left. f_equal. symmetry. apply so_total; assumption.
  Qed.

  Lemma om_In_get k v m : sorted m = true -> In (k, v) m -> get k m = Some v.
  Proof.
    induction m as [|[k' v'] r IH]; cbn [In om_get]; intros Hs; [tauto|].
    apply om_sorted_cons in Hs as [H1 H2]. intros [H|H].
    - injection H as -> ->. rewrite so_irrefl. reflexivity.
    - pose proof (H1 _ _ H) as L. rewrite (ltb_asym _ _ L), L. apply IH; assumption.
  Qed.

  Lemma om_get_iff k v m : sorted m = true -> (get k m = Some v <-> In (k, v) m).
  Proof. intros Hs. split; [apply om_get_In|apply om_In_get; exact Hs]. Qed.

  Lemma om_get_none k m : sorted m = true -> (get k m = None <-> ~ In k (map fst m)).
  Proof.
    intros Hs. split.
    - intros H HI. apply in_map_iff in HI as [[k' v'] [E HI]]. cbn in E; subst k'.
      apply (om_In_get _ _ _ Hs) in HI. congruence.
    - intros H. destruct (get k m) as [v|] eqn:E; [|reflexivity].
      exfalso; apply H. apply om_get_In in E. apply in_map_iff. exists (k, v); split; [reflexivity|exact E].
  Qed.

  Lemma om_sorted_NoDup m : sorted m = true -> NoDup (map fst m).
  Proof.
    induction m as [|[k v] r IH]; cbn [map]; intros Hs; [constructor|].
    apply om_sorted_cons in Hs as [H1 H2]. constructor; [|apply IH; exact H2].
    intros HI. apply in_map_iff in HI as [[k' v'] [E HI]]. cbn in E; subst k'.
    pose proof (H1 _ _ HI) as L. rewrite so_irrefl in L. discriminate.
  Qed.

  Lemma om_sorted_ext m1 m2 :
    sorted m1 = true -> sorted m2 = true -> (forall k v, In (k, v) m1 <-> In (k, v) m2) -> m1 = m2.
  Proof.
    revert m2; induction m1 as [|[k v] r IH]; intros [|[k2 v2] r2] H1 H2 HE.
    - reflexivity.
    - exfalso. destruct (HE k2 v2) as [_ H]. apply H. left; reflexivity.
    - exfalso. destruct (HE k v) as [H _]. apply H. left; reflexivity.
    - apply om_sorted_cons in H1 as [A1 B1]. apply om_sorted_cons in H2 as [A2 B2].
      assert (E : (k, v) = (k2, v2)).
      { destruct (HE k v) as [H _]. destruct (H (or_introl eq_refl)) as [E|HI]; [symmetry; exact E|].
        destruct (HE k2 v2) as [_ H']. destruct (H' (or_introl eq_refl)) as [E|HI']; [exact E|].
        pose proof (A2 _ _ HI) as L1. pose proof (A1 _ _ HI') as L2.
        rewrite (ltb_asym _ _ L1) in L2. discriminate. }
      injection E as <- <-. f_equal. apply IH; [exact B1|exact B2|].
      intros k' v'. split; intros HI.
      + destruct (HE k' v') as [H _]. destruct (H (or_intror HI)) as [E|HI']; [|exact HI'].
        injection E as <- <-. pose proof (A1 _ _ HI) as L. rewrite so_irrefl in L. discriminate.
      + destruct (HE k' v') as [_ H]. destruct (H (or_intror HI)) as [E|HI']; [|exact HI'].
        injection E as <- <-. pose proof (A2 _ _ HI) as L. rewrite so_irrefl in L. discriminate.
  Qed.

  Lemma om_insert_length k v m :
    length (snd (insert k v m)) =
    match get k m with None => S (length m) | Some _ => length m end.
  Proof.
    induction m as [|[k' v'] r IH]; cbn; [reflexivity|].
    destruct (ltb k k'); cbn; [reflexivity|]. destruct (ltb k' k); cbn; [|reflexivity].
    destruct (insert k v r) as [o r']; cbn in *. rewrite IH. destruct (get k r); reflexivity.
  Qed.

  Lemma om_insert_perm k v m : get k m = None -> Permutation ((k, v) :: m) (snd (insert k v m)).
  Proof.
    induction m as [|[k' v'] r IH]; cbn; [reflexivity|].
    destruct (ltb k k'); cbn; [reflexivity|]. destruct (ltb k' k); cbn; [|discriminate].
    intros H. specialize (IH H). destruct (insert k v r) as [o r']; cbn in *.
    rewrite perm_swap. constructor. exact IH.
  Qed.

  Lemma om_get_ext_none k m : get k [] = @None V. Proof. reflexivity. Qed.

  (** [om_of_list]: for distinct keys it is the sorted permutation of the list. *)
  Lemma om_fold_sorted l m : sorted m = true ->
    sorted (fold_left (fun m e => snd (insert (fst e) (snd e) m)) l m) = true.
  Proof.
    revert m; induction l as [|[k v] l IH]; intros m Hs; cbn; [exact Hs|].
    apply IH. apply om_sorted_insert. exact Hs.
  Qed.
  Lemma om_of_list_sorted (l : list (K * V)) : sorted (om_of_list ltb l) = true.
  Proof. apply om_fold_sorted. reflexivity. Qed.

  Lemma om_fold_perm l m : sorted m = true ->
    NoDup (map fst (m ++ l)) ->
    Permutation (m ++ l) (fold_left (fun m e => snd (insert (fst e) (snd e) m)) l m).
  Proof.
    revert m; induction l as [|[k v] l IH]; intros m Hs Hn; cbn.
    - rewrite app_nil_r. reflexivity.
    - assert (Hk : get k m = None).
      { apply om_get_none; [exact Hs|]. rewrite map_app in Hn. cbn in Hn.
        apply NoDup_remove_2 in Hn. intros H. apply Hn. apply in_or_app. left; exact H. }
      pose proof (om_insert_perm k v m Hk) as P.
      rewrite <- IH.
      + rewrite <- P. cbn. symmetry. apply Permutation_middle.
      + apply om_sorted_insert; exact Hs.
      + eapply Permutation_NoDup; [|exact Hn]. apply Permutation_map.
        rewrite <- P. cbn. symmetry. apply Permutation_middle.
  Qed.
  Lemma om_of_list_perm (l : list (K * V)) :
    NoDup (map fst l) -> Permutation l (om_of_list ltb l).
  Proof. intros H. apply (om_fold_perm l []); [reflexivity|exact H]. Qed.

  (** What [om_get] returns on [om_of_list]: the last entry for the key. *)
  Lemma om_of_list_app (l : list (K * V)) k v :
    om_of_list ltb (l ++ [(k, v)]) = snd (insert k v (om_of_list ltb l)).
  Proof. unfold om_of_list. rewrite fold_left_app. reflexivity. Qed.

  Lemma om_sorted_of_list m : sorted m = true -> om_of_list ltb m = m.
  Proof.
    intros Hs. apply om_sorted_ext; [apply om_of_list_sorted|exact Hs|].
    intros k v. pose proof (om_of_list_perm m (om_sorted_NoDup m Hs)) as P.
    split; intros H; [symmetry in P|]; eapply Permutation_in; eassumption.
  Qed.
End MapFacts.

Section SetFacts.
  Context {K : Type} (ltb : K -> K -> bool) {HO : StrictOrd ltb}.

  (** Strictly increasing list. *)
  Inductive os_sorted : list K -> Prop :=
  | os_nil : os_sorted []
  | os_cons k l : (forall x, In x l -> ltb k x = true) -> os_sorted l -> os_sorted (k :: l).

  Lemma os_insert_In k m x : In x (os_insert ltb k m) <-> x = k \/ In x m.
  Proof.
    induction m as [|k' r IH]; cbn.
    - intuition.
    - destruct (ltb k k') eqn:E1; cbn; [intuition|]. destruct (ltb k' k) eqn:E2; cbn.
      + rewrite IH. intuition.
      + assert (k = k') by (apply so_total; assumption). subst k'. intuition.
  Qed.
  Lemma os_insert_sorted k m : os_sorted m -> os_sorted (os_insert ltb k m).
  Proof.
    induction 1 as [|k' r H1 H2 IH]; cbn.
    - constructor; [intros x []|constructor].
    - destruct (ltb k k') eqn:E1; [|destruct (ltb k' k) eqn:E2].
      + constructor; [|constructor; assumption]. intros x [<-|H]; [exact E1|].
        eapply so_trans; [exact E1|apply H1; exact H].
      + constructor; [|exact IH]. intros x H. apply os_insert_In in H as [->|H]; [exact E2|].
        apply H1; exact H.
      + constructor; assumption.
  Qed.
  Lemma os_fold_In l m x :
    In x (fold_left (fun m k => os_insert ltb k m) l m) <-> In x l \/ In x m.
  Proof.
    revert m; induction l as [|k l IH]; intros m; cbn; [tauto|].
    rewrite IH, os_insert_In. intuition.
  Qed.
  Lemma os_of_list_In l x : In x (os_of_list ltb l) <-> In x l.
  Proof. unfold os_of_list. rewrite os_fold_In. cbn. tauto. Qed.
  Lemma os_of_list_sorted l : os_sorted (os_of_list ltb l).
  Proof.
    unfold os_of_list. assert (H : os_sorted []) by constructor. revert H. generalize (@nil K).
    induction l as [|k l IH]; intros m H; cbn; [exact H|]. apply IH, os_insert_sorted, H.
  Qed.
  Lemma os_remove_In k m x : os_sorted m -> (In x (os_remove ltb k m) <-> In x m /\ x <> k).
  Proof.
    induction 1 as [|k' r H1 H2 IH]; cbn; [tauto|].
    destruct (ltb k k') eqn:E1; [|destruct (ltb k' k) eqn:E2]; cbn.
    - split; [|tauto]. intros H. split; [exact H|]. intros ->.
      destruct H as [->|H]; [rewrite so_irrefl in E1; discriminate|].
      pose proof (so_trans _ _ _ E1 (H1 _ H)) as L. rewrite so_irrefl in L. discriminate.
    - rewrite IH. split.
      + intros [->|[H N]]; [|tauto]. split; [tauto|]. intros ->. rewrite so_irrefl in E2. discriminate.
      + tauto.
    - assert (k = k') by (apply so_total; assumption). subst k'. split.
      + intros H. split; [tauto|]. intros ->. pose proof (H1 _ H) as L.
        rewrite so_irrefl in L. discriminate.
      + intros [[->|H] N]; [exfalso; apply N; reflexivity|exact H].
  Qed.
  Lemma os_remove_sorted k m : os_sorted m -> os_sorted (os_remove ltb k m).
  Proof.
    induction 1 as [|k' r H1 H2 IH]; cbn; [constructor|].
    destruct (ltb k k') eqn:E1; [|destruct (ltb k' k) eqn:E2]; [constructor; assumption| |exact H2].
    constructor; [|exact IH]. intros x H. apply os_remove_In in H as [H _]; [|exact H2].
    apply H1; exact H.
  Qed.
  Lemma os_head_least k l x : os_sorted (k :: l) -> In x (k :: l) -> x = k \/ ltb k x = true.
  Proof. intros H. inversion H; subst. intros [->|HI]; [left; reflexivity|right; auto]. Qed.
End SetFacts.
