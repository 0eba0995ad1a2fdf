(** Facts about partially revealed trees (specification level only). *)
From Verif Require Import Base BaseFacts SpecHash HashFacts MpcBlock SpecTree.

Lemma flatten_nonempty d t : flatten d t <> [].
Proof.
  revert d; induction t as [h|p m|l IHl r IHr]; intros d; cbn; try discriminate.
  intros E. apply app_eq_nil in E as [E _]. exact (IHl _ E).
Qed.
Lemma flatten_length d d' t : length (flatten d t) = length (flatten d' t).
Proof.
  revert d d'; induction t as [h|p m|l IHl r IHr]; intros d d'; cbn; try reflexivity.
  rewrite !app_length, (IHl (S d) (S d')), (IHr (S d) (S d')). reflexivity.
Qed.
Lemma pwf_loose_of D d t : pwf D d t -> pwf_loose D d t.
Proof.
  revert d; induction t as [h|p m|l IHl r IHr]; intros d; cbn; [lia|auto|].
  intros [A B]. split; auto.
Qed.
Lemma pwf_depth D d t : pwf D d t -> d <= D.
Proof.
  revert d; induction t as [h|p m|l IHl r IHr]; intros d; cbn; [auto|lia|].
  intros [A _]. apply IHl in A. lia.
Qed.
Lemma known_leaves_app a b : known_leaves (a ++ b) = known_leaves a ++ known_leaves b.
Proof.
  induction a as [|[d h|p m] a IH]; cbn; [reflexivity|exact IH|rewrite IH; reflexivity].
Qed.
Lemma known_leaves_flatten d t : known_leaves (flatten d t) = pleaves t.
Proof.
  revert d; induction t as [h|p m|l IHl r IHr]; intros d; cbn; try reflexivity.
  rewrite known_leaves_app, IHl, IHr. reflexivity.
Qed.
Lemma pleaves_at_leaves D d o t : map snd (pleaves_at D d o t) = pleaves t.
Proof.
  revert d o; induction t as [h|p m|l IHl r IHr]; intros d o; cbn; try reflexivity.
  rewrite map_app, IHl, IHr. reflexivity.
Qed.

(** A frontier determines its tree: the depth sequence gives the shape. *)
Lemma flatten_inj_gen D d t1 t2 r1 r2 :
  pwf D d t1 -> pwf D d t2 -> flatten d t1 ++ r1 = flatten d t2 ++ r2 -> t1 = t2 /\ r1 = r2.
Proof.
  assert (HB : forall e l, pwf D (S e) l -> forall f h x y, flatten (S e) l ++ x = ConcealedNode f h :: y -> f >= S e).
  { intros e l. revert e. induction l as [h|p m|l IHl r IHr]; cbn; intros e Hw f h' x y E.
    - injection E as <- <- <-. lia.
    - discriminate.
    - rewrite <- app_assoc in E. apply IHl in E; [lia|]. exact (proj1 Hw). }
  assert (HL : forall e l, pwf D (S e) l -> forall p m x y, flatten (S e) l ++ x = CommitmentLeaf p m :: y -> S e <= D).
  { intros e l Hw p m x y _. eapply pwf_depth; eassumption. }
  revert d t2 r1 r2; induction t1 as [h|p m|l IHl r IHr]; intros d t2 r1 r2 W1 W2 E.
  - destruct t2 as [h'|p' m'|l' r']; cbn in *.
    + injection E as -> ->. split; reflexivity.
    + discriminate.
    + rewrite <- app_assoc in E. symmetry in E. apply HB in E; [lia|exact (proj1 W2)].
  - destruct t2 as [h'|p' m'|l' r']; cbn in *.
    + discriminate.
    + injection E as -> -> ->. split; reflexivity.
    + rewrite <- app_assoc in E. symmetry in E. apply HL in E; [lia|exact (proj1 W2)].
  - destruct t2 as [h'|p' m'|l' r']; cbn in *.
    + rewrite <- app_assoc in E. apply HB in E; [lia|exact (proj1 W1)].
    + rewrite <- app_assoc in E. apply HL in E; [lia|exact (proj1 W1)].
    + rewrite <- !app_assoc in E. apply IHl in E as [-> E]; [|exact (proj1 W1)|exact (proj1 W2)].
      apply IHr in E as [-> ->]; [|exact (proj2 W1)|exact (proj2 W2)]. split; reflexivity.
Qed.
Lemma flatten_inj D d t1 t2 : pwf D d t1 -> pwf D d t2 -> flatten d t1 = flatten d t2 -> t1 = t2.
Proof.
  intros W1 W2 E. apply (flatten_inj_gen D d t1 t2 [] [] W1 W2). rewrite E. reflexivity.
Qed.

Section WithHash.
Context {H : Hasher}.
Implicit Types (t : ptree).

Lemma prestrict_none f W d t :
  existsb (fun e => f (fst e)) (pleaves t) = false -> prestrict f W d t = PConc (phash W d t).
Proof.
  destruct t as [h|p m|l r]; cbn; intros E; [reflexivity| |].
  - rewrite orb_false_r in E. rewrite E. reflexivity.
  - rewrite E. reflexivity.
Qed.

Lemma prestrict_some f W d t :
  existsb (fun e => f (fst e)) (pleaves t) = true ->
  match prestrict f W d t with PConc _ => False | _ => True end.
Proof.
  destruct t as [h|p m|l r]; cbn; intros E; [discriminate| |].
  - rewrite orb_false_r in E. rewrite E. exact I.
  - rewrite E. exact I.
Qed.

Lemma prestrict_leaves f W d t :
  pleaves (prestrict f W d t) = filter (fun e => f (fst e)) (pleaves t).
Proof.
  revert d; induction t as [h|p m|l IHl r IHr]; intros d; cbn.
  - reflexivity.
  - destruct (f p); reflexivity.
  - destruct (existsb _ _) eqn:E; cbn.
    + rewrite IHl, IHr, filter_app. reflexivity.
    + symmetry. clear -E. induction (pleaves l ++ pleaves r) as [|e x IH]; cbn in *; [reflexivity|].
      apply orb_false_iff in E as [E1 E2]. rewrite E1. apply IH, E2.
Qed.

Lemma prestrict_phash f W d t : phash W d (prestrict f W d t) = phash W d t.
Proof.
  revert d; induction t as [h|p m|l IHl r IHr]; intros d; cbn.
  - reflexivity.
  - destruct (f p); reflexivity.
  - destruct (existsb _ _); cbn; [rewrite IHl, IHr|]; reflexivity.
Qed.

Lemma prestrict_pwf f W D d t : pwf D d t -> pwf D d (prestrict f W d t).
Proof.
  revert d; induction t as [h|p m|l IHl r IHr]; intros d; cbn; intros Hw.
  - exact Hw.
  - destruct (f p); cbn; lia.
  - destruct (existsb _ _); cbn; [split; [apply IHl|apply IHr]; apply Hw|].
    destruct Hw as [A _]. apply pwf_depth in A. lia.
Qed.

Lemma prestrict_maximal f W d t : pmaximal (prestrict f W d t).
Proof.
  revert d; induction t as [h|p m|l IHl r IHr]; intros d; cbn.
  - exact I.
  - destruct (f p); exact I.
  - destruct (existsb _ _) eqn:E; cbn; [|exact I]. split; [apply IHl|]. split; [apply IHr|].
    rewrite existsb_app in E. apply orb_true_iff in E as [E|E].
    + apply (prestrict_some f W (S d)) in E. destruct (prestrict f W (S d) l); tauto.
    + apply (prestrict_some f W (S d)) in E.
      destruct (prestrict f W (S d) l), (prestrict f W (S d) r); tauto.
Qed.

Lemma filter_filter {A} (f g : A -> bool) l :
  filter f (filter g l) = filter (fun x => g x && f x) l.
Proof.
  induction l as [|x l IH]; cbn; [reflexivity|].
  destruct (g x); cbn; [destruct (f x); rewrite IH; reflexivity|exact IH].
Qed.
Lemma existsb_filter {A} (f g : A -> bool) l :
  existsb f (filter g l) = existsb (fun x => g x && f x) l.
Proof.
  induction l as [|x l IH]; cbn; [reflexivity|].
  destruct (g x); cbn; [rewrite IH; reflexivity|exact IH].
Qed.

Lemma prestrict_ext f g W d t :
  (forall p m, In (p, m) (pleaves t) -> f p = g p) -> prestrict f W d t = prestrict g W d t.
Proof.
  revert d; induction t as [h|p m|l IHl r IHr]; intros d E; cbn.
  - reflexivity.
  - rewrite (E p m (or_introl eq_refl)). reflexivity.
  - replace (existsb (fun e => g (fst e)) (pleaves l ++ pleaves r))
      with (existsb (fun e => f (fst e)) (pleaves l ++ pleaves r)).
    + rewrite (IHl (S d)), (IHr (S d)); [reflexivity| |]; intros p m HI; apply (E p m); cbn;
        apply in_or_app; tauto.
    + cbn in E. clear -E. induction (pleaves l ++ pleaves r) as [|[p m] x IH]; cbn; [reflexivity|].
      rewrite (E p m (or_introl eq_refl)), IH; [reflexivity|].
      intros q n HI. apply (E q n). right; exact HI.
Qed.

(** Concealing in two steps *)
Lemma prestrict_twice f g W d t :
  prestrict f W d (prestrict g W d t) = prestrict (fun p => g p && f p) W d t.
Proof.
  revert d; induction t as [h|p m|l IHl r IHr]; intros d; cbn.
  - reflexivity.
  - destruct (g p) eqn:Eg; cbn; [destruct (f p); reflexivity|reflexivity].
  - destruct (existsb (fun e => g (fst e)) (pleaves l ++ pleaves r)) eqn:E; cbn.
    + rewrite <- (existsb_filter (fun e => f (fst e)) (fun e => g (fst e))).
      rewrite !prestrict_leaves, <- filter_app, IHl, IHr, !prestrict_phash. reflexivity.
    + destruct (existsb (fun e => g (fst e) && f (fst e)) _) eqn:E2; [|reflexivity].
      exfalso. clear -E E2. induction (pleaves l ++ pleaves r) as [|e x IH]; cbn in *; [discriminate|].
      apply orb_false_iff in E as [E3 E4]. rewrite E3 in E2. cbn in E2. exact (IH E4 E2).
Qed.

Lemma prestrict_id f W d t :
  pmaximal t -> (forall p m, In (p, m) (pleaves t) -> f p = true) -> prestrict f W d t = t.
Proof.
  revert d; induction t as [h|p m|l IHl r IHr]; intros d; cbn; intros M E.
  - reflexivity.
  - rewrite (E p m (or_introl eq_refl)). reflexivity.
  - destruct M as [M1 [M2 M3]].
    destruct (existsb (fun e => f (fst e)) (pleaves l ++ pleaves r)) eqn:Ex.
    + rewrite IHl, IHr; try assumption; [reflexivity| |]; intros p m HI; apply (E p m);
        apply in_or_app; tauto.
    + exfalso. assert (Hn : forall x, pmaximal x -> pleaves x = [] -> exists h, x = PConc h).
      { clear. induction x as [h|p m|l IHl r IHr]; cbn.
        - intros _ _. exists h; reflexivity.
        - discriminate.
        - intros [M1 [M2 M3]] E. apply app_eq_nil in E as [E1 E2].
          destruct (IHl M1 E1) as [a ->], (IHr M2 E2) as [b ->]. destruct M3. }
      assert (Hl : pleaves l ++ pleaves r = []).
      { destruct (pleaves l ++ pleaves r) as [|[p m] x]; [reflexivity|]. cbn in Ex.
        rewrite (E p m (or_introl eq_refl)) in Ex. discriminate. }
      apply app_eq_nil in Hl as [E1 E2].
      destruct (Hn l M1 E1) as [a ->], (Hn r M2 E2) as [b ->]. exact M3.
Qed.

(** ** Views *)
Lemma pview_refl W d t : pview W d t t.
Proof.
  revert d; induction t as [h|p m|l IHl r IHr]; intros d; cbn; auto.
Qed.
Lemma pview_phash W d t s : pview W d t s -> phash W d t = phash W d s.
Proof.
  revert d s; induction t as [h|p m|l IHl r IHr]; intros d s; cbn.
  - auto.
  - destruct s; cbn; try tauto. intros [-> ->]. reflexivity.
  - destruct s as [|?|l' r']; cbn; try tauto. intros [A B].
    rewrite (IHl _ _ A), (IHr _ _ B). reflexivity.
Qed.
Lemma pview_trans W d t s u : pview W d t s -> pview W d s u -> pview W d t u.
Proof.
  revert d s u; induction t as [h|p m|l IHl r IHr]; intros d s u.
  - cbn. intros -> V. apply pview_phash. exact V.
  - destruct s as [|?|]; cbn; try tauto. intros [-> ->]. destruct u; cbn; tauto.
  - destruct s as [|?|l' r']; cbn; try tauto. intros [A B]. destruct u as [|?|l'' r'']; cbn; try tauto.
    intros [C E]. split; [eapply IHl|eapply IHr]; eassumption.
Qed.
Lemma prestrict_view f W d t : pview W d (prestrict f W d t) t.
Proof.
  revert d; induction t as [h|p m|l IHl r IHr]; intros d; cbn.
  - reflexivity.
  - destruct (f p); cbn; auto.
  - destruct (existsb _ _); cbn; auto.
Qed.

(** Two trees are compatible when they can be views of one tree. *)
Fixpoint pcompat (W : N) (d : nat) (a b : ptree) : Prop :=
  match a, b with
  | PConc h, _ => h = phash W d b
  | _, PConc h => h = phash W d a
  | PLeaf p m, PLeaf p' m' => p = p' /\ m = m'
  | PBr l r, PBr l' r' => pcompat W (S d) l l' /\ pcompat W (S d) r r'
  | _, _ => False
  end.

Lemma pcompat_phash W d a b : pcompat W d a b -> phash W d a = phash W d b.
Proof.
  revert d b; induction a as [h|p m|l IHl r IHr]; intros d b.
  - cbn. auto.
  - destruct b; cbn; try tauto; [congruence|]. intros [-> ->]. reflexivity.
  - destruct b as [h|p m|l' r']; cbn; try tauto; [congruence|]. intros [A B].
    rewrite (IHl _ _ A), (IHr _ _ B). reflexivity.
Qed.
Lemma pcompat_sym W d a b : pcompat W d a b -> pcompat W d b a.
Proof.
  revert d b; induction a as [h|p m|l IHl r IHr]; intros d b.
  - destruct b; cbn; auto.
  - destruct b; cbn; try tauto. intros [-> ->]. auto.
  - destruct b as [h|p m|l' r']; cbn; try tauto. intros [A B]. auto.
Qed.
Lemma pview_compat W d a b s : pview W d a s -> pview W d b s -> pcompat W d a b.
Proof.
  revert d b s; induction a as [h|p m|l IHl r IHr]; intros d b s.
  - cbn. intros -> V. symmetry. apply pview_phash; exact V.
  - destruct s as [|p' m'|]; cbn; try tauto. intros [-> ->].
    destruct b; cbn; try tauto. intros [-> ->]. auto.
  - destruct s as [|?|l' r']; cbn; try tauto. intros [A B].
    destruct b as [h|p m|l2 r2]; cbn; try tauto.
    + intros ->. rewrite (pview_phash _ _ _ _ A), (pview_phash _ _ _ _ B). reflexivity.
    + intros [C E]. split; [eapply IHl|eapply IHr]; eassumption.
Qed.

Lemma pjoin_phash W d a b : pcompat W d a b -> phash W d (pjoin a b) = phash W d a.
Proof.
  revert d b; induction a as [h|p m|l IHl r IHr]; intros d b.
  - cbn. intros ->. reflexivity.
  - destruct b; cbn; tauto.
  - destruct b as [h|p m|l' r']; cbn; try tauto. intros [A B].
    rewrite (IHl _ _ A), (IHr _ _ B). reflexivity.
Qed.
Lemma pjoin_pwf D W d a b : pcompat W d a b -> pwf D d a -> pwf D d b -> pwf D d (pjoin a b).
Proof.
  revert d b; induction a as [h|p m|l IHl r IHr]; intros d b.
  - cbn. auto.
  - destruct b; cbn; auto.
  - destruct b as [h|p m|l' r']; cbn; try tauto. intros [A B] [C E] [F G]. auto.
Qed.
Lemma pjoin_view W d a b s : pview W d a s -> pview W d b s -> pview W d (pjoin a b) s.
Proof.
  revert d b s; induction a as [h|p m|l IHl r IHr]; intros d b s.
  - cbn. auto.
  - destruct s; destruct b; cbn; tauto.
  - destruct s as [|?|l' r']; cbn; try tauto. destruct b as [h|p m|l2 r2]; cbn; try tauto.
    intros [A B] [C E]. auto.
Qed.
Lemma pjoin_comm W d a b : pcompat W d a b -> pjoin a b = pjoin b a.
Proof.
  revert d b; induction a as [h|p m|l IHl r IHr]; intros d b.
  - destruct b as [h'|p m|l r]; cbn; [|reflexivity|reflexivity]. intros ->. reflexivity.
  - destruct b as [h'|p' m'|l r]; cbn; try tauto. intros [-> ->]. reflexivity.
  - destruct b as [h'|p' m'|l' r']; cbn; try tauto. intros [A B].
    rewrite (IHl _ _ A), (IHr _ _ B). reflexivity.
Qed.
Lemma pjoin_idem a : pjoin a a = a.
Proof. induction a as [h|p m|l IHl r IHr]; cbn; congruence. Qed.
Lemma pjoin_assoc W d a b c s :
  pview W d a s -> pview W d b s -> pview W d c s -> pjoin (pjoin a b) c = pjoin a (pjoin b c).
Proof.
  revert d b c s; induction a as [h|p m|l IHl r IHr]; intros d b c s.
  - cbn. reflexivity.
  - destruct s as [|p' m'|]; cbn; try tauto. intros _.
    destruct b as [|? ?|]; cbn; try tauto; destruct c; cbn; tauto.
  - destruct s as [|?|l' r']; cbn; try tauto. intros [A B].
    destruct b as [|? ?|lb rb]; cbn; try tauto; destruct c as [|? ?|lc rc]; cbn; try tauto.
    intros [C E] [F G]. f_equal; [eapply IHl|eapply IHr]; eassumption.
Qed.
(** [pjoin] is an upper bound for the "is a view of" order. *)
Lemma pjoin_ub_l W d a b : pcompat W d a b -> pview W d a (pjoin a b).
Proof.
  revert d b; induction a as [h|p m|l IHl r IHr]; intros d b.
  - cbn. auto.
  - destruct b; cbn; auto.
  - destruct b as [h|p m|l' r']; cbn; try tauto.
    + intros _. split; apply pview_refl.
    + intros [A B]. auto.
Qed.

(** Leaves of the join: those of either, by position. *)
Lemma pjoin_leaves_at D W d o a b : pcompat W d a b -> forall x,
  In x (pleaves_at D d o (pjoin a b)) <-> In x (pleaves_at D d o a) \/ In x (pleaves_at D d o b).
Proof.
  revert d o b; induction a as [h|p m|l IHl r IHr]; intros d o b C x.
  - cbn. tauto.
  - destruct b; cbn in *; try tauto. destruct C as [-> ->]. tauto.
  - destruct b as [h|p m|l' r']; cbn in *; try tauto. destruct C as [A B].
    rewrite !in_app_iff, (IHl _ _ _ A), (IHr _ _ _ B). tauto.
Qed.

(** The coarsest views of one tree join to the coarsest view showing the union. *)
Lemma pjoin_prestrict f g W d t :
  pjoin (prestrict f W d t) (prestrict g W d t) = prestrict (fun p => f p || g p) W d t.
Proof.
  revert d; induction t as [h|p m|l IHl r IHr]; intros d; cbn.
  - reflexivity.
  - destruct (f p), (g p); reflexivity.
  - assert (EX : existsb (fun e => f (fst e) || g (fst e)) (pleaves l ++ pleaves r) =
                 existsb (fun e => f (fst e)) (pleaves l ++ pleaves r) ||
                 existsb (fun e => g (fst e)) (pleaves l ++ pleaves r)).
    { clear. induction (pleaves l ++ pleaves r) as [|e x IH]; cbn; [reflexivity|].
      rewrite IH. destruct (f (fst e)), (g (fst e)); cbn; try reflexivity.
      rewrite orb_true_r. reflexivity. }
    rewrite EX. clear EX.
    destruct (existsb (fun e => f (fst e)) (pleaves l ++ pleaves r)) eqn:E1;
      destruct (existsb (fun e => g (fst e)) (pleaves l ++ pleaves r)) eqn:E2; cbn.
    + rewrite IHl, IHr. reflexivity.
    + f_equal; apply prestrict_ext; intros p m HI.
      * replace (g p) with false; [rewrite orb_false_r; reflexivity|].
        symmetry. destruct (g p) eqn:E; [|reflexivity]. exfalso.
        assert (C : existsb (fun e => g (fst e)) (pleaves l ++ pleaves r) = true).
        { apply existsb_exists. exists (p, m). split; [apply in_or_app; tauto|exact E]. }
        congruence.
      * replace (g p) with false; [rewrite orb_false_r; reflexivity|].
        symmetry. destruct (g p) eqn:E; [|reflexivity]. exfalso.
        assert (C : existsb (fun e => g (fst e)) (pleaves l ++ pleaves r) = true).
        { apply existsb_exists. exists (p, m). split; [apply in_or_app; tauto|exact E]. }
        congruence.
    + f_equal; apply prestrict_ext; intros p m HI.
      * replace (f p) with false; [reflexivity|].
        symmetry. destruct (f p) eqn:E; [|reflexivity]. exfalso.
        assert (C : existsb (fun e => f (fst e)) (pleaves l ++ pleaves r) = true).
        { apply existsb_exists. exists (p, m). split; [apply in_or_app; tauto|exact E]. }
        congruence.
      * replace (f p) with false; [reflexivity|].
        symmetry. destruct (f p) eqn:E; [|reflexivity]. exfalso.
        assert (C : existsb (fun e => f (fst e)) (pleaves l ++ pleaves r) = true).
        { apply existsb_exists. exists (p, m). split; [apply in_or_app; tauto|exact E]. }
        congruence.
    + reflexivity.
Qed.

(** ** Binding: equal hashes make trees compatible, up to collisions *)
Lemma phash_compat W d a b :
  phash W d a = phash W d b ->
  pcompat W d a b \/ collision_in (ppre W d a ++ ppre W d b).
Proof.
  revert d b; induction a as [h|p m|l IHl r IHr]; intros d b E.
  - left. exact E.
  - destruct b as [h|p' m'|l' r'].
    + left. symmetry; exact E.
    + cbn in *. destruct (coll [s_leaf p m; s_leaf p' m'] (s_leaf p m) (s_leaf p' m')) as [E'|C]; cbn; auto.
      left. apply s_leaf_inj in E'. exact E'.
    + destruct (fun I1 I2 => coll (ppre W d (PLeaf p m) ++ ppre W d (PBr l' r')) _ _ I1 I2 E)
        as [E'|C]; [left; reflexivity|right; left; reflexivity| |right; exact C].
      destruct (s_leaf_branch _ _ _ _ _ _ E').
  - destruct b as [h|p' m'|l' r'].
    + left. symmetry; exact E.
    + destruct (fun I1 I2 => coll (ppre W d (PBr l r) ++ ppre W d (PLeaf p' m')) _ _ I1 I2 E)
        as [E'|C]; [left; reflexivity|apply in_or_app; right; left; reflexivity| |right; exact C].
      symmetry in E'. destruct (s_leaf_branch _ _ _ _ _ _ E').
    + cbn [pcompat phash] in *.
      destruct (fun I1 I2 => coll (ppre W d (PBr l r) ++ ppre W d (PBr l' r')) _ _ I1 I2 E)
        as [E'|C]; [left; reflexivity|apply in_or_app; right; left; reflexivity| |right; exact C].
      apply s_branch_inj_children in E' as [E1 E2].
      destruct (IHl _ _ E1) as [C1|C1].
      * destruct (IHr _ _ E2) as [C2|C2]; [left; split; assumption|right].
        eapply coll_incl; [|exact C2]. cbn. intros x HI. apply in_app_or in HI.
        right. apply in_or_app. cbn. rewrite !in_app_iff. tauto.
      * right. eapply coll_incl; [|exact C1]. cbn. intros x HI. apply in_app_or in HI.
        right. apply in_or_app. cbn. rewrite !in_app_iff. tauto.
Qed.

End WithHash.
