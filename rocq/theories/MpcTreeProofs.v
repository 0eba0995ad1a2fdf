(** tree.rs: the placement search, and trees as abstract trees. *)
From Verif Require Import Base BaseFacts OrdMap OrdMapFacts SpecHash HashFacts Merkle MpcAtoms
  MpcTree MpcBlock SpecTree SpecMerkle SpecCommit TreeFacts ConcealProofs BlockInv PathProofs MerkleProofs.
From Verif Require Import SpecValid SpecFull.
From Coq Require Import Permutation.
Local Open Scope nat_scope.

Lemma pos_spec pid cof D :
  D <= 31 -> protocol_id_pos pid cof D = s_pos pid cof D /\ (s_pos pid cof D < 2 ^ N.of_nat D)%N.
Proof.
  intros HD. destruct (protocol_id_pos_spec pid cof D HD) as [E L]. unfold s_pos.
  rewrite N.max_comm. split; [rewrite E; reflexivity|]. rewrite E in L. exact L.
Qed.

(** ** Placing *)
Definition pos_of (c : N) (d : nat) (e : bytes32 * bytes32) : N := protocol_id_pos (fst e) c d.

Lemma place_some msgs c d m0 m :
  om_sorted N.ltb m0 = true -> place msgs c d m0 = Some m ->
  om_sorted N.ltb m = true /\
  Permutation (m0 ++ map (fun e => (pos_of c d e, e)) msgs) m /\
  NoDup (map fst m0 ++ map (pos_of c d) msgs).
Proof.
  revert m0; induction msgs as [|[p x] msgs IH]; intros m0 Hs E; cbn in E.
  - injection E as <-. cbn. rewrite !app_nil_r. split; [exact Hs|]. split; [reflexivity|].
    apply (om_sorted_NoDup N.ltb). exact Hs.
  - destruct (om_insert N.ltb (protocol_id_pos p c d) (p, x) m0) as [old m1] eqn:Ei.
    destruct old; [discriminate|].
    pose proof (om_insert_old N.ltb (protocol_id_pos p c d) (p, x) m0) as Ho. rewrite Ei in Ho. cbn in Ho.
    symmetry in Ho. pose proof (om_insert_perm N.ltb _ (p, x) m0 Ho) as Hp. rewrite Ei in Hp. cbn in Hp.
    pose proof (om_sorted_insert N.ltb (protocol_id_pos p c d) (p, x) m0 Hs) as Hs1. rewrite Ei in Hs1.
    cbn in Hs1. destruct (IH m1 Hs1 E) as [S1 [P1 N1]]. split; [exact S1|]. split.
    + etransitivity; [|exact P1]. rewrite <- Hp. cbn [map]. unfold pos_of at 1. cbn. symmetry. apply Permutation_middle.
    + eapply Permutation_NoDup; [|exact N1]. apply (Permutation_map fst) in Hp. cbn in Hp. rewrite <- Hp.
      cbn. apply Permutation_middle.
Qed.

Lemma place_none msgs c d m0 :
  om_sorted N.ltb m0 = true -> place msgs c d m0 = None -> ~ NoDup (map fst m0 ++ map (pos_of c d) msgs).
Proof.
  revert m0; induction msgs as [|[p x] msgs IH]; intros m0 Hs E; cbn in E; [discriminate|].
  destruct (om_insert N.ltb (protocol_id_pos p c d) (p, x) m0) as [old m1] eqn:Ei.
  pose proof (om_insert_old N.ltb (protocol_id_pos p c d) (p, x) m0) as Ho. rewrite Ei in Ho. cbn in Ho.
  destruct old as [o|].
  - symmetry in Ho. apply (om_get_In N.ltb) in Ho. intros Nd. cbn [map] in Nd.
    apply NoDup_remove_2 in Nd. apply Nd. apply in_or_app. left. unfold pos_of. cbn.
    apply in_map_iff. exists (protocol_id_pos p c d, o). split; [reflexivity|exact Ho].
  - symmetry in Ho. pose proof (om_insert_perm N.ltb _ (p, x) m0 Ho) as Hp. rewrite Ei in Hp. cbn in Hp.
    pose proof (om_sorted_insert N.ltb (protocol_id_pos p c d) (p, x) m0 Hs) as Hs1. rewrite Ei in Hs1.
    intros Nd. apply (IH m1 Hs1 E). eapply Permutation_NoDup; [|exact Nd].
    apply (Permutation_map fst) in Hp. cbn in Hp. rewrite <- Hp. cbn. symmetry. apply Permutation_middle.
Qed.

Lemma fits_pos msgs d c : d <= 31 -> fits msgs d c <-> NoDup (map (pos_of c d) msgs).
Proof.
  intros Hd. unfold fits. replace (map (fun e => s_pos (fst e) c d) msgs) with (map (pos_of c d) msgs); [tauto|].
  apply map_ext. intros e. unfold pos_of. apply pos_spec. exact Hd.
Qed.

Lemma try_cofactors_spec cs msgs d :
  match try_cofactors cs msgs d with
  | Some (c, m) => exists a b, cs = a ++ c :: b /\ place msgs c d [] = Some m /\
                     (forall c', In c' a -> place msgs c' d [] = None)
  | None => forall c', In c' cs -> place msgs c' d [] = None
  end.
Proof.
  induction cs as [|c cs IH]; cbn; [tauto|].
  destruct (place msgs c d []) as [m|] eqn:E.
  - exists [], cs. split; [reflexivity|]. split; [exact E|]. intros c' [].
  - destruct (try_cofactors cs msgs d) as [[c1 m]|].
    + destruct IH as [a [b [-> [H1 H2]]]]. exists (c :: a), b. split; [reflexivity|]. split; [exact H1|].
      intros c' [<-|HI]; [exact E|apply H2; exact HI].
    + intros c' [<-|HI]; [exact E|apply IH; exact HI].
Qed.

Lemma N_range_In n x : In x (N_range n) <-> (x < n)%N.
Proof. rewrite N_range_from, N_from_In. lia. Qed.
Lemma N_range_split n a c b : N_range n = a ++ c :: b -> forall x, (x < c)%N -> In x a.
Proof.
  rewrite N_range_from. intros E x L.
  assert (G : forall k o a b, N_from o k = a ++ c :: b -> forall x, (o <= x < c)%N -> In x a).
  { clear. induction k as [|k IH]; intros o a b E x L.
    - destruct a; discriminate.
    - rewrite N_from_S in E. destruct a as [|y a]; cbn in E; injection E as E1 E2.
      + subst. lia.
      + subst y. destruct (N.eq_dec x o) as [->|Nx]; [left; reflexivity|right].
        eapply IH; [exact E2|lia]. }
  eapply G; [exact E|lia].
Qed.

(** One depth *)
Definition cof_bound (prev : N) : N := N.min prev 500.
Definition attempt (msgs : message_map) (d : nat) (prev : N) : option (N * ordered_map) :=
  if (N.of_nat (length msgs) <=? width_of d)%N then
    try_cofactors (N_range (N.min prev cofactor_attempts + 1)) msgs d
  else None.

Lemma attempt_spec msgs d prev :
  d <= 31 ->
  match attempt msgs d prev with
  | Some (c, m) =>
      (N.of_nat (length msgs) <= 2 ^ N.of_nat d)%N /\ (c <= N.min prev 500)%N /\ fits msgs d c /\
      place msgs c d [] = Some m /\ (forall c', (c' < c)%N -> ~ fits msgs d c')
  | None =>
      forall c', (N.of_nat (length msgs) <= 2 ^ N.of_nat d)%N -> (c' <= N.min prev 500)%N -> ~ fits msgs d c'
  end.
Proof.
  intros Hd. unfold attempt, width_of, cofactor_attempts.
  destruct (N.of_nat (length msgs) <=? 2 ^ N.of_nat d)%N eqn:E.
  - apply N.leb_le in E. pose proof (try_cofactors_spec (N_range (N.min prev 500 + 1)) msgs d) as T.
    destruct (try_cofactors _ _ _) as [[c m]|].
    + destruct T as [a [b [Ea [Ep En]]]].
      assert (Ic : In c (N_range (N.min prev 500 + 1))) by (rewrite Ea; apply in_or_app; right; left; reflexivity).
      apply N_range_In in Ic. split; [exact E|]. split; [lia|]. split.
      * apply fits_pos; [exact Hd|]. apply place_some in Ep; [|reflexivity]. exact (proj2 (proj2 Ep)).
      * split; [exact Ep|]. intros c' L F. apply fits_pos in F; [|exact Hd].
        pose proof (N_range_split _ _ _ _ Ea c' L) as I'. apply En in I'.
        apply place_none in I'; [|reflexivity]. contradiction.
    + intros c' _ L F. apply fits_pos in F; [|exact Hd].
      assert (I' : In c' (N_range (N.min prev 500 + 1))) by (apply N_range_In; lia).
      apply T in I'. apply place_none in I'; [|reflexivity]. contradiction.
  - apply N.leb_gt in E. intros c' L. lia.
Qed.

(** The search *)
Definition prev_of (min_depth d : nat) : N := if Nat.eqb d min_depth then 1 else (2 ^ N.of_nat (d - 1))%N.

Lemma commit_loop_spec fuel msgs min_depth d prev :
  min_depth <= d <= 31 -> 32 <= fuel + d -> prev = prev_of min_depth d ->
  (forall d' c', d' < d -> allowed min_depth (length msgs) d' c' -> ~ fits msgs d' c') ->
  match commit_loop fuel msgs d prev with
  | Ret (Ok (d1, c, m)) =>
      allowed min_depth (length msgs) d1 c /\ fits msgs d1 c /\ place msgs c d1 [] = Some m /\
      (forall d' c', allowed min_depth (length msgs) d' c' -> fits msgs d' c' -> not_after (d1, c) (d', c'))
  | Ret (Err e) =>
      e = CantFitInMaxSlots (length msgs) /\
      (forall d' c', allowed min_depth (length msgs) d' c' -> ~ fits msgs d' c')
  | Panic _ => False
  end.
Proof.
  revert d prev; induction fuel as [|fuel IH]; intros d prev Hd Hf Hp Hb; [lia|].
  cbn [commit_loop]. fold (attempt msgs d prev).
  pose proof (attempt_spec msgs d prev (proj2 Hd)) as A.
  assert (PA : forall c, (c <= N.min prev 500)%N <-> (c <= 500)%N /\ (c <= if Nat.eqb d min_depth then 1 else 2 ^ N.of_nat (d - 1))%N).
  { intros c. rewrite Hp. unfold prev_of. lia. }
  destruct (attempt msgs d prev) as [[c m]|].
  - destruct A as [A1 [A2 [A3 [A4 A5]]]]. apply PA in A2.
    split; [repeat split; tauto|]. split; [exact A3|]. split; [exact A4|].
    intros d' c' Al F. unfold not_after; cbn. destruct (lt_eq_lt_dec d d') as [[L|L]|L]; [left; exact L| |].
    + subst d'. right. split; [reflexivity|]. destruct (N.lt_ge_cases c' c) as [L|L]; [|exact L].
      exfalso. eapply A5; eassumption.
    + exfalso. eapply Hb; eassumption.
  - assert (Hb' : forall d' c', d' < S d -> allowed min_depth (length msgs) d' c' -> ~ fits msgs d' c').
    { intros d' c' L Al. destruct (Nat.eq_dec d' d) as [->|N]; [|apply Hb; [lia|exact Al]].
      destruct Al as [_ [Q1 [Q2 Q3]]]. apply A; [exact Q1|]. apply PA. tauto. }
    unfold u5_checked_add, u5_max. destruct (d + 1 <=? 31) eqn:E.
    + apply Nat.leb_le in E. replace (d + 1) with (S d) by lia. apply IH; [lia|lia| |exact Hb'].
      unfold prev_of. replace (S d =? min_depth) with false by (symmetry; apply Nat.eqb_neq; lia).
      replace (S d - 1) with d by lia. reflexivity.
    + apply Nat.leb_gt in E. split; [reflexivity|]. intros d' c' Al. apply Hb'; [|exact Al].
      destruct Al as [Al _]. lia.
Qed.

(** A source whose commitment does not panic: static entropy, or built with an RNG *)
Definition entropy_of (src : multi_source) (rng : option N) : option N :=
  match ms_static_entropy src with Some e => Some e | None => rng end.

Lemma try_commit_spec src rng :
  ms_min_depth src <= 31 -> (N.of_nat (length (ms_messages src)) <= u24_max)%N ->
  let msgs := ms_messages src in
  let md := ms_min_depth src in
  match try_commit src rng with
  | Ret (Ok t) =>
      ~ (md = 0 /\ msgs = []) /\
      entropy_of src rng = Some (mt_entropy t) /\ mt_method t = ms_method src /\ mt_messages t = msgs /\
      allowed md (length msgs) (mt_depth t) (mt_cofactor t) /\ fits msgs (mt_depth t) (mt_cofactor t) /\
      place msgs (mt_cofactor t) (mt_depth t) [] = Some (mt_map t) /\
      (forall d' c', allowed md (length msgs) d' c' -> fits msgs d' c' ->
         not_after (mt_depth t, mt_cofactor t) (d', c'))
  | Ret (Err Empty) => md = 0 /\ msgs = []
  | Ret (Err (CantFitInMaxSlots n)) =>
      ~ (md = 0 /\ msgs = []) /\ entropy_of src rng <> None /\
      n = length msgs /\ (forall d' c', allowed md (length msgs) d' c' -> ~ fits msgs d' c')
  | Ret (Err (TooManyMessages _)) => False
  | Panic p => ~ (md = 0 /\ msgs = []) /\ entropy_of src rng = None /\ p = PExpect
  end.
Proof.
  intros Hd Hn msgs md. unfold try_commit. fold msgs. fold md.
  destruct ((md =? 0) && (length msgs =? 0)) eqn:E0.
  - apply andb_true_iff in E0 as [E1 E2]. apply Nat.eqb_eq in E1, E2. split; [exact E1|].
    destruct msgs; [reflexivity|discriminate].
  - assert (NE : ~ (md = 0 /\ msgs = [])).
    { intros [Q1 Q2]. rewrite Q1, Q2 in E0. discriminate. }
    replace (2 ^ 31 <? N.of_nat (length msgs))%N with false.
    2: { symmetry. apply N.ltb_ge. assert (u24_max <= 2 ^ 31)%N by (vm_compute; discriminate).
         unfold msgs. lia. }
    unfold entropy_of. 
    assert (G : forall e, match bind (commit_loop 32 msgs md 1) (fun r => match r with
                 | Err e0 => Ret (Err e0)
                 | Ok (depth, cofactor, map) => Ret (Ok (MTree (ms_method src) depth e cofactor msgs map)) end) with
       | Ret (Ok t) => mt_entropy t = e /\ mt_method t = ms_method src /\ mt_messages t = msgs /\
          allowed md (length msgs) (mt_depth t) (mt_cofactor t) /\ fits msgs (mt_depth t) (mt_cofactor t) /\
      place msgs (mt_cofactor t) (mt_depth t) [] = Some (mt_map t) /\
      (forall d' c', allowed md (length msgs) d' c' -> fits msgs d' c' ->
         not_after (mt_depth t, mt_cofactor t) (d', c'))
       | Ret (Err (CantFitInMaxSlots n)) =>
           n = length msgs /\ (forall d' c', allowed md (length msgs) d' c' -> ~ fits msgs d' c')
       | _ => False end).
    { intros e. pose proof (commit_loop_spec 32 msgs md md 1) as C.
      destruct (commit_loop 32 msgs md 1) as [[[[d c] m]|er]|p]; cbn [bind].
      - destruct C as [C1 [C2 [C3 C4]]]; [lia|lia|unfold prev_of; rewrite Nat.eqb_refl; reflexivity| |].
        { intros d' c' L [Al _]. lia. }
        cbn. tauto.
      - destruct C as [-> C]; [lia|lia|unfold prev_of; rewrite Nat.eqb_refl; reflexivity| |].
        { intros d' c' L [Al _]. lia. }
        tauto.
      - apply C; [lia|lia|unfold prev_of; rewrite Nat.eqb_refl; reflexivity|].
        intros d' c' L [Al _]. lia. }
    destruct (ms_static_entropy src) as [e|].
    + cbn [bind]. specialize (G e). destruct (bind _ _) as [[t|[| |]]|]; try contradiction.
      * destruct G as [-> G]. tauto.
      * split; [exact NE|]. split; [discriminate|]. exact G.
    + destruct rng as [e|].
      * cbn [bind]. specialize (G e). destruct (bind _ _) as [[t|[| |]]|]; try contradiction.
        -- destruct G as [-> G]. tauto.
        -- split; [exact NE|]. split; [discriminate|]. exact G.
      * cbn [bind]. auto.
Qed.

(** ** Trees produced by try_commit *)

(** What is known about a tree, without reference to its source *)
Record good_tree (t : merkle_tree) : Prop := GoodTree {
  gt_depth : mt_depth t <= 31;
  gt_cofactor : (mt_cofactor t <= 500)%N;
  gt_cofactor_width : (mt_cofactor t < 2 ^ N.of_nat (mt_depth t))%N;
  gt_messages : om_sorted b32_ltb (mt_messages t) = true;
  gt_map_sorted : om_sorted N.ltb (mt_map t) = true;
  gt_map : forall q p m, In (q, (p, m)) (mt_map t) <->
             In (p, m) (mt_messages t) /\ q = s_pos p (mt_cofactor t) (mt_depth t);
  gt_distinct : NoDup (map (fun e => s_pos (fst e) (mt_cofactor t) (mt_depth t)) (mt_messages t));
  gt_count : (N.of_nat (length (mt_messages t)) <= u24_max)%N;
  gt_room : (N.of_nat (length (mt_messages t)) <= 2 ^ N.of_nat (mt_depth t) - mt_cofactor t)%N;
  gt_map_length : length (mt_map t) = length (mt_messages t)
}.

Lemma NoDup_bound (l : list N) n : NoDup l -> (forall x, In x l -> (x < n)%N) -> (N.of_nat (length l) <= n)%N.
Proof.
  intros Nd Hl. assert (I : incl l (N_range n)) by (intros x HI; apply N_range_In, Hl, HI).
  apply NoDup_incl_length in I; [|exact Nd]. rewrite N_range_from, N_from_length in I. lia.
Qed.

Theorem try_commit_good src rng t :
  valid_source src -> try_commit src rng = Ret (Ok t) -> good_tree t.
Proof.
  intros [V1 [V2 [V3 V4]]] E. pose proof (try_commit_spec src rng V1 V2) as T. cbv zeta in T. rewrite E in T.
  destruct T as [NE [Te [Tm [Ts [Al [F [Pl First]]]]]]].
  destruct Al as [Ad [An [Ac Aw]]].
  apply place_some in Pl as [S1 [P1 N1]]; [|reflexivity]. cbn in P1, N1.
  assert (HD : mt_depth t <= 31) by lia.
  assert (PM : forall e, pos_of (mt_cofactor t) (mt_depth t) e = s_pos (fst e) (mt_cofactor t) (mt_depth t)).
  { intros e. apply pos_spec. exact HD. }
  assert (CW : (mt_cofactor t < 2 ^ N.of_nat (mt_depth t))%N).
  { destruct (mt_depth t =? ms_min_depth src) eqn:Ed.
    - apply Nat.eqb_eq in Ed. destruct (mt_depth t) as [|d] eqn:Edd.
      + (* depth 0: one message, cofactor 0 *)
        cbn. assert (C0 : (mt_cofactor t <= 0)%N); [|lia].
        assert (A0 : allowed (ms_min_depth src) (length (ms_messages src)) 0 0).
        { unfold allowed. repeat split; try lia. }
        assert (F0 : fits (ms_messages src) 0 0).
        { unfold fits. change (2 ^ N.of_nat 0)%N with 1%N in An. destruct (ms_messages src) as [|e [|e' l]]; cbn [map].
          - constructor.
          - constructor; [intros []|constructor].
          - cbn in An. lia. }
        specialize (First _ _ A0 F0). unfold not_after in First. cbn in First. lia.
      + assert (1 < 2 ^ N.of_nat (S d))%N; [|lia].
        rewrite Nat2N.inj_succ, N.pow_succ_r'. pose proof (width_of_pos d). unfold width_of in *. lia.
    - apply Nat.eqb_neq in Ed. replace (mt_depth t) with (S (mt_depth t - 1)) by lia.
      rewrite Nat2N.inj_succ, N.pow_succ_r'. pose proof (width_of_pos (mt_depth t - 1)). unfold width_of in *. lia. }
  constructor.
  - exact HD.
  - exact Ac.
  - exact CW.
  - rewrite Ts. exact V3.
  - exact S1.
  - intros q p m. rewrite Ts. split.
    + intros HI. eapply Permutation_in in HI; [|symmetry; exact P1]. apply in_map_iff in HI as [e [Q HI]].
      injection Q as Q1 Q2. subst e. split; [exact HI|]. rewrite <- Q1, PM. reflexivity.
    + intros [HI ->]. eapply Permutation_in; [exact P1|]. apply in_map_iff. exists (p, m).
      split; [rewrite PM; reflexivity|exact HI].
  - rewrite Ts. exact F.
  - rewrite Ts. exact V2.
  - rewrite Ts. replace (length (ms_messages src)) with
      (length (map (fun e => s_pos (fst e) (mt_cofactor t) (mt_depth t)) (ms_messages src)))
      by apply map_length. apply NoDup_bound; [exact F|].
    intros x HI. apply in_map_iff in HI as [e [<- _]]. unfold s_pos.
    assert (Q : (N.max 1 (2 ^ N.of_nat (mt_depth t) - mt_cofactor t) <> 0)%N) by lia.
    apply (N.mod_lt (le_val (fst e))) in Q. lia.
  - apply Permutation_length in P1. rewrite map_length in P1. rewrite Ts. congruence.
Qed.

Section WithHash.
Context {H : Hasher}.

(** The fully revealed tree *)

Definition is_slot (x : ptree) : Prop := match x with PBr _ _ => False | _ => True end.
Lemma slot_is_slot t i : is_slot (slot t i).
Proof. unfold slot. destruct (om_get N.ltb i (mt_map t)) as [[p m]|]; exact I. Qed.

Lemma full_tree_flatten k d o f :
  (forall i, is_slot (f i)) ->
  flatten d (full_tree k o f) =
  map (fun i => match f i with PLeaf p m => CommitmentLeaf p m | PConc h => ConcealedNode (d + k) h
                | PBr _ _ => ConcealedNode 0 (b32_fill x00) end) (N_from o (2 ^ k)).
Proof.
  intros Hf. revert d o; induction k as [|k IH]; intros d o.
  - cbn [full_tree Nat.pow]. rewrite N_from_S. cbn. specialize (Hf o). rewrite Nat.add_0_r.
    destruct (f o); try reflexivity. destruct Hf.
  - cbn [full_tree flatten]. replace (2 ^ S k) with (2 ^ k + 2 ^ k) by (cbn; lia).
    rewrite N_from_app, map_app, !IH, pow_of_nat.
    f_equal; apply map_ext; intros i; destruct (f i); try reflexivity; f_equal; lia.
Qed.
Lemma full_tree_pwf k d o f : (forall i, is_slot (f i)) -> pwf (d + k) d (full_tree k o f).
Proof.
  intros Hf. revert d o; induction k as [|k IH]; intros d o; cbn.
  - specialize (Hf o). destruct (f o); cbn; try lia. destruct Hf.
  - replace (d + S k) with (S d + k) by lia. split; apply IH.
Qed.
Lemma full_tree_leaves k d o f q p m :
  (forall i, is_slot (f i)) ->
  In (q, (p, m)) (pleaves_at (d + k) d o (full_tree k o f)) <->
  (o <= q < o + 2 ^ N.of_nat k)%N /\ f q = PLeaf p m.
Proof.
  intros Hf. revert d o; induction k as [|k IH]; intros d o.
  - cbn [full_tree]. change (2 ^ N.of_nat 0)%N with 1%N. specialize (Hf o).
    destruct (f o) as [h|p' m'|] eqn:E; cbn; [|destruct Hf|destruct Hf].
    + split; [tauto|]. intros [L Q]. replace q with o in Q by lia. congruence.
    + split.
      * intros [Q|[]]. injection Q as <- <- <-. split; [lia|exact E].
      * intros [L Q]. replace q with o in * by lia. left. congruence.
  - cbn [full_tree pleaves_at]. replace (d + S k) with (S d + k) by lia.
    replace (S d + k - S d) with k by lia. rewrite in_app_iff, !IH.
    rewrite Nat2N.inj_succ, N.pow_succ_r'. split.
    + intros [[L Q]|[L Q]]; (split; [lia|exact Q]).
    + intros [L Q]. destruct (N.lt_ge_cases q (o + 2 ^ N.of_nat k)%N); [left|right]; (split; [lia|exact Q]).
Qed.
Lemma full_tree_perfect W k d o f g :
  (forall i, is_slot (f i)) -> (forall i, phash W (d + k) (f i) = g i) ->
  phash W d (full_tree k o f) = perfect W d k o g.
Proof.
  intros Hf Hg. revert d o Hg; induction k as [|k IH]; intros d o Hg; cbn.
  - rewrite <- Hg, Nat.add_0_r. reflexivity.
  - rewrite !IH; [reflexivity|..]; intros i; rewrite <- (Hg i); f_equal; lia.
Qed.

Lemma tree_full_pwf t : pwf (mt_depth t) 0 (tree_full t).
Proof. apply (full_tree_pwf (mt_depth t) 0 0), slot_is_slot. Qed.

Lemma block_of_tree_flatten t : mb_cross_section (block_of_tree t) = flatten 0 (tree_full t).
Proof.
  unfold tree_full. rewrite full_tree_flatten by apply slot_is_slot. cbn [block_of_tree mb_cross_section].
  unfold mt_width_limit, width_of. rewrite N_range_from, pow_to_nat. apply map_ext. intros i.
  unfold slot. destruct (om_get N.ltb i (mt_map t)) as [[p m]|]; reflexivity.
Qed.

Theorem block_of_tree_wf t : good_tree t -> block_tree (block_of_tree t) (tree_full t).
Proof.
  intros G. split; [exact (gt_depth _ G)|]. split.
  - cbn. pose proof (gt_cofactor _ G). change (2 ^ 16)%N with 65536%N. lia.
  - split; [apply block_of_tree_flatten|apply tree_full_pwf].
Qed.

Lemma tree_full_leaves t q p m :
  good_tree t ->
  In (q, (p, m)) (pleaves_at (mt_depth t) 0 0 (tree_full t)) <->
  In (p, m) (mt_messages t) /\ q = s_pos p (mt_cofactor t) (mt_depth t).
Proof.
  intros G. unfold tree_full. rewrite (full_tree_leaves (mt_depth t) 0 0 (slot t)) by apply slot_is_slot.
  rewrite <- (gt_map _ G). unfold slot. split.
  - intros [_ Q]. destruct (om_get N.ltb q (mt_map t)) as [[p' m']|] eqn:E; [|discriminate].
    injection Q as -> ->. apply (om_get_In N.ltb). exact E.
  - intros HI. pose proof HI as HI'. apply (om_In_get N.ltb) in HI; [|exact (gt_map_sorted _ G)].
    rewrite HI. split; [|reflexivity]. apply (gt_map _ G) in HI' as [_ ->].
    pose proof (pos_spec p (mt_cofactor t) (mt_depth t) (gt_depth _ G)). lia.
Qed.

Lemma tree_full_pleaves t p m : good_tree t -> In (p, m) (pleaves (tree_full t)) <-> In (p, m) (mt_messages t).
Proof.
  intros G. rewrite <- (pleaves_at_leaves (mt_depth t) 0 0), in_map_iff. split.
  - intros [[q e] [Q HI]]. cbn in Q. subst e. apply (tree_full_leaves t q p m G) in HI. tauto.
  - intros HI. exists (s_pos p (mt_cofactor t) (mt_depth t), (p, m)). split; [reflexivity|].
    apply tree_full_leaves; tauto.
Qed.

Lemma tree_full_placed t : good_tree t -> placed (mt_depth t) (mt_cofactor t) (tree_full t).
Proof.
  intros G q p m HI. apply (tree_full_leaves t q p m G) in HI as [_ ->].
  symmetry. apply pos_spec. exact (gt_depth _ G).
Qed.

(** C07 *)
Theorem tree_commit_ok md t :
  good_tree t -> tree_commit_id md t = Ret (pcommit (mt_depth t) (mt_cofactor t) (tree_full t)).
Proof.
  intros G. destruct (block_of_tree_wf t G) as [HD [Hc [Hx Hw]]].
  apply (block_commit_id_ok md (block_of_tree t) (tree_full t)); [exact HD|exact Hx|apply pwf_loose_of; exact Hw].
Qed.
Theorem tree_conceal_ok md t :
  good_tree t ->
  tree_conceal md t = Ret (MConcealed (mt_depth t) (mt_cofactor t) (phash (width_of (mt_depth t)) 0 (tree_full t))).
Proof.
  intros G. destruct (block_of_tree_wf t G) as [HD [Hc [Hx Hw]]].
  apply (block_conceal_ok md (block_of_tree t) (tree_full t)); [exact HD|exact Hx|apply pwf_loose_of; exact Hw].
Qed.
Theorem tree_root_ok t :
  mt_depth t <= 31 -> mt_root t = Ret (phash (width_of (mt_depth t)) 0 (tree_full t)).
Proof.
  intros HD. unfold mt_root, mt_width_limit, width_of. rewrite merklize_perfect by exact HD.
  f_equal. symmetry. unfold tree_full. apply full_tree_perfect; [apply slot_is_slot|].
  intros i. unfold slot, tree_leaf. destruct (om_get N.ltb i (mt_map t)) as [[p m]|]; reflexivity.
Qed.

(** ** Binding of the whole tree *)
(** Strings hashed for a tree: inner nodes and inhabited leaves, and entropy leaves. *)

Lemma full_compat W k d o f g :
  (forall i, is_slot (f i)) -> (forall i, is_slot (g i)) ->
  pcompat W d (full_tree k o f) (full_tree k o g) ->
  forall i, (o <= i < o + 2 ^ N.of_nat k)%N -> pcompat W (d + k) (f i) (g i).
Proof.
  intros Hf Hg. revert d o; induction k as [|k IH]; intros d o C i L.
  - change (2 ^ N.of_nat 0)%N with 1%N in L. replace i with o by lia. rewrite Nat.add_0_r. exact C.
  - cbn in C. destruct C as [C1 C2]. rewrite Nat2N.inj_succ, N.pow_succ_r' in L.
    replace (d + S k) with (S d + k) by lia.
    destruct (N.lt_ge_cases i (o + 2 ^ N.of_nat k)%N).
    + eapply IH; [exact C1|lia].
    + eapply IH; [exact C2|lia].
Qed.

Lemma full_ppre W k d o f p m i :
  (o <= i < o + 2 ^ N.of_nat k)%N -> f i = PLeaf p m -> In (s_leaf p m) (ppre W d (full_tree k o f)).
Proof.
  revert d o; induction k as [|k IH]; intros d o L E.
  - change (2 ^ N.of_nat 0)%N with 1%N in L. replace i with o in E by lia. cbn. rewrite E. left. reflexivity.
  - cbn. right. rewrite Nat2N.inj_succ, N.pow_succ_r' in L. apply in_or_app.
    destruct (N.lt_ge_cases i (o + 2 ^ N.of_nat k)%N).
    + left. eapply IH; [|exact E]. lia.
    + right. eapply IH; [|exact E]. lia.
Qed.

(** Slot by slot, for any representable trees *)
Theorem slots_binding t1 t2 :
  mt_depth t1 <= 31 -> mt_depth t2 <= 31 -> (mt_cofactor t1 < 2 ^ 16)%N -> (mt_cofactor t2 < 2 ^ 16)%N ->
  (mt_entropy t1 < 2 ^ 64)%N -> (mt_entropy t2 < 2 ^ 64)%N ->
  pcommit (mt_depth t1) (mt_cofactor t1) (tree_full t1) = pcommit (mt_depth t2) (mt_cofactor t2) (tree_full t2) ->
  (mt_depth t1 = mt_depth t2 /\ mt_cofactor t1 = mt_cofactor t2 /\
   forall i, (i < 2 ^ N.of_nat (mt_depth t1))%N ->
     om_get N.ltb i (mt_map t1) = om_get N.ltb i (mt_map t2) /\
     (om_get N.ltb i (mt_map t1) = None -> mt_entropy t1 = mt_entropy t2)) \/
  collision_in (tree_pre t1 ++ tree_pre t2).
Proof.
  intros HD1 HD2 Hc1 Hc2 He1 He2 E.
  destruct (pcommit_inj (mt_depth t1) (mt_depth t2) (mt_cofactor t1) (mt_cofactor t2) (tree_full t1) (tree_full t2))
    as [[ED [EC C]]|C].
  - exact HD1.
  - exact HD2.
  - exact Hc1.
  - exact Hc2.
  - exact E.
  - unfold tree_full in C. rewrite <- ED in C.
    pose proof (full_compat _ _ _ _ _ _ (slot_is_slot t1) (slot_is_slot t2) C) as FC. cbn [Nat.add] in FC.
    (* position by position *)
    assert (P : forall i, (i < 2 ^ N.of_nat (mt_depth t1))%N ->
      (om_get N.ltb i (mt_map t1) = om_get N.ltb i (mt_map t2) /\
       (om_get N.ltb i (mt_map t1) = None -> mt_entropy t1 = mt_entropy t2))
      \/ collision_in (tree_pre t1 ++ tree_pre t2)).
    { intros i L. specialize (FC i). rewrite N.add_0_l in FC. specialize (FC (conj (N.le_0_l i) L)).
      assert (Hp1 : forall p m, om_get N.ltb i (mt_map t1) = Some (p, m) -> In (s_leaf p m) (tree_pre t1)).
      { intros p m Q. unfold tree_pre, pcommit_pre, tree_full. rewrite !in_app_iff. left; right.
        eapply full_ppre with (i := i); [lia|]. unfold slot. rewrite Q. reflexivity. }
      assert (Hp2 : forall p m, om_get N.ltb i (mt_map t2) = Some (p, m) -> In (s_leaf p m) (tree_pre t2)).
      { intros p m Q. unfold tree_pre, pcommit_pre, tree_full. rewrite !in_app_iff. left; right.
        eapply full_ppre with (i := i); [rewrite <- ED; lia|]. unfold slot. rewrite Q. reflexivity. }
      assert (He1' : om_get N.ltb i (mt_map t1) = None -> In (s_entropy (mt_entropy t1) i) (tree_pre t1)).
      { intros Q. unfold tree_pre, entropy_pre. apply in_or_app. right. apply in_flat_map. exists i.
        rewrite Q. split; [apply N_from_In; rewrite pow_of_nat; lia|left; reflexivity]. }
      assert (He2' : om_get N.ltb i (mt_map t2) = None -> In (s_entropy (mt_entropy t2) i) (tree_pre t2)).
      { intros Q. unfold tree_pre, entropy_pre. apply in_or_app. right. apply in_flat_map. exists i.
        rewrite Q. split; [apply N_from_In; rewrite pow_of_nat, <- ED; lia|left; reflexivity]. }
      assert (Bi : (i < 2 ^ 32)%N).
      { pose proof (width_of_bound _ HD1). unfold width_of in *.
        assert (2 ^ 31 < 2 ^ 32)%N by reflexivity. lia. }
      unfold slot in FC.
      destruct (om_get N.ltb i (mt_map t1)) as [[p1 m1]|] eqn:Q1;
        destruct (om_get N.ltb i (mt_map t2)) as [[p2 m2]|] eqn:Q2; cbn in FC.
      - destruct FC as [-> ->]. left. split; [reflexivity|discriminate].
      - destruct (fun I1 I2 => coll (tree_pre t1 ++ tree_pre t2) _ _ I1 I2 FC) as [Q|K].
        + apply in_or_app. right. apply He2'. reflexivity.
        + apply in_or_app. left. apply Hp1. reflexivity.
        + symmetry in Q. destruct (s_leaf_entropy _ _ _ _ Q).
        + right. exact K.
      - destruct (fun I1 I2 => coll (tree_pre t1 ++ tree_pre t2) _ _ I1 I2 FC) as [Q|K].
        + apply in_or_app. left. apply He1'. reflexivity.
        + apply in_or_app. right. apply Hp2. reflexivity.
        + symmetry in Q. destruct (s_leaf_entropy _ _ _ _ Q).
        + right. exact K.
      - destruct (fun I1 I2 => coll (tree_pre t1 ++ tree_pre t2) _ _ I1 I2 FC) as [Q|K].
        + apply in_or_app. left. apply He1'. reflexivity.
        + apply in_or_app. right. apply He2'. reflexivity.
        + apply s_entropy_inj in Q as [Q _]; [|assumption..]. left. split; [reflexivity|]. intros _. exact Q.
        + right. exact K. }
    (* all positions, or a collision *)
    assert (PP : (forall i, (i < 2 ^ N.of_nat (mt_depth t1))%N ->
        om_get N.ltb i (mt_map t1) = om_get N.ltb i (mt_map t2) /\
        (om_get N.ltb i (mt_map t1) = None -> mt_entropy t1 = mt_entropy t2))
        \/ collision_in (tree_pre t1 ++ tree_pre t2)).
    { assert (Ind : forall n, (forall i, (i < N.of_nat n)%N -> (i < 2 ^ N.of_nat (mt_depth t1))%N ->
          om_get N.ltb i (mt_map t1) = om_get N.ltb i (mt_map t2) /\
        (om_get N.ltb i (mt_map t1) = None -> mt_entropy t1 = mt_entropy t2))
        \/ collision_in (tree_pre t1 ++ tree_pre t2)).
      { induction n as [|n [IH|IH]]; [left; intros i L; lia| |right; exact IH].
        destruct (N.lt_ge_cases (N.of_nat n) (2 ^ N.of_nat (mt_depth t1))%N) as [L|L].
        - destruct (P _ L) as [Q|K]; [left|right; exact K]. intros i Li Lw.
          destruct (N.eq_dec i (N.of_nat n)) as [->|Nn]; [exact Q|apply IH; lia].
        - left. intros i Li Lw. apply IH; lia. }
      destruct (Ind (2 ^ mt_depth t1)) as [Q|K]; [left|right; exact K].
      intros i L. apply Q; [rewrite pow_of_nat; exact L|exact L]. }
    destruct PP as [PP|K]; [left; auto|right; exact K].
  - right. eapply coll_incl; [|exact C]. intros x HI. apply in_app_or in HI. unfold tree_pre.
    rewrite !in_app_iff. tauto.
Qed.

Theorem tree_binding t1 t2 :
  good_tree t1 -> good_tree t2 -> (mt_entropy t1 < 2 ^ 64)%N -> (mt_entropy t2 < 2 ^ 64)%N ->
  pcommit (mt_depth t1) (mt_cofactor t1) (tree_full t1) = pcommit (mt_depth t2) (mt_cofactor t2) (tree_full t2) ->
  (mt_depth t1 = mt_depth t2 /\ mt_cofactor t1 = mt_cofactor t2 /\ mt_messages t1 = mt_messages t2 /\
   mt_map t1 = mt_map t2 /\
   ((N.of_nat (length (mt_messages t1)) < 2 ^ N.of_nat (mt_depth t1))%N -> mt_entropy t1 = mt_entropy t2)) \/
  collision_in (tree_pre t1 ++ tree_pre t2).
Proof.
  intros G1 G2 He1 He2 E.
  assert (B16 : (500 < 2 ^ 16)%N) by reflexivity.
  pose proof (gt_cofactor _ G1) as Gc1. pose proof (gt_cofactor _ G2) as Gc2.
  destruct (slots_binding t1 t2 (gt_depth _ G1) (gt_depth _ G2) ltac:(lia) ltac:(lia) He1 He2 E) as [[ED [EC PP]]|K];
    [left|right; exact K].
  assert (EM : mt_map t1 = mt_map t2).
  { apply (om_sorted_ext N.ltb); [exact (gt_map_sorted _ G1)|exact (gt_map_sorted _ G2)|].
    intros q [p m]. rewrite <- !(om_get_iff N.ltb) by (apply gt_map_sorted; assumption).
    split; intros Q.
    - rewrite <- (proj1 (PP q ltac:(apply (om_get_In N.ltb) in Q; apply (gt_map _ G1) in Q as [_ ->];
        pose proof (pos_spec p (mt_cofactor t1) (mt_depth t1) (gt_depth _ G1)); lia))). exact Q.
    - rewrite (proj1 (PP q ltac:(apply (om_get_In N.ltb) in Q; apply (gt_map _ G2) in Q as [_ ->];
        rewrite ED;
        pose proof (pos_spec p (mt_cofactor t2) (mt_depth t2) (gt_depth _ G2)); lia))). exact Q. }
  split; [exact ED|]. split; [exact EC|]. split.
  { apply (om_sorted_ext b32_ltb); [exact (gt_messages _ G1)|exact (gt_messages _ G2)|].
    intros p m. split; intros HI.
    - pose proof (proj2 (gt_map _ G1 _ p m) (conj HI eq_refl)) as Q. rewrite EM in Q.
      apply (gt_map _ G2) in Q. tauto.
    - pose proof (proj2 (gt_map _ G2 _ p m) (conj HI eq_refl)) as Q. rewrite <- EM in Q.
      apply (gt_map _ G1) in Q. tauto. }
  split; [exact EM|]. intros L.
  (* some position is vacant *)
  assert (V : exists i, (i < 2 ^ N.of_nat (mt_depth t1))%N /\ om_get N.ltb i (mt_map t1) = None).
  { set (used := map fst (mt_map t1)).
    destruct (in_dec N.eq_dec) with (a := 0%N) (l := @nil N) as [[]|_].
    assert (D : {i | In i (N_range (2 ^ N.of_nat (mt_depth t1))) /\ ~ In i used} + 
                {forall i, In i (N_range (2 ^ N.of_nat (mt_depth t1))) -> In i used}).
    { induction (N_range (2 ^ N.of_nat (mt_depth t1))) as [|x l IH]; [right; intros i []|].
      destruct (in_dec N.eq_dec x used) as [Y|Nn]; [|left; exists x; split; [left; reflexivity|exact Nn]].
      destruct IH as [[i [I1 I2]]|A]; [left; exists i; split; [right; exact I1|exact I2]|right].
      intros i [<-|HI]; [exact Y|apply A; exact HI]. }
    destruct D as [[i [I1 I2]]|A].
    - exists i. split; [apply N_range_In; exact I1|]. apply (om_get_none N.ltb); [exact (gt_map_sorted _ G1)|exact I2].
    - exfalso. assert (I : incl (N_range (2 ^ N.of_nat (mt_depth t1))) used) by (intros i HI; apply A; exact HI).
      apply NoDup_incl_length in I.
      + rewrite N_range_from, N_from_length in I. unfold used in I. rewrite map_length, (gt_map_length _ G1) in I. lia.
      + rewrite N_range_from. unfold N_from. apply FinFun.Injective_map_NoDup; [|apply seq_NoDup].
        intros a b Q. lia. }
  destruct V as [i [L1 Q]]. exact (proj2 (PP i L1) Q).
Qed.

End WithHash.
