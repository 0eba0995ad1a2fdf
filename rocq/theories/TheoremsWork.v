(** Theorems: the work of concealing a block and of computing a commitment. *)
From Verif Require Import Base BaseFacts OrdMap Merkle MpcAtoms MpcTree MpcBlock SpecTree TreeFacts ConcealProofs
  BlockInv PathProofs PassProofs MergeProofs SpecHash Work.
Local Open Scope nat_scope.

(** ** C104 *)
Section WithHash.
Context {H : Hasher}.

Lemma counted_leaves_ok D ids : forall xs nf c h,
  counted_leaves D ids xs nf c h =
  (let '(r, nf', c') := conceal_leaves D ids xs nf c in (r, nf', c', (h + (c' - c))%N)) /\
  (c <= snd (conceal_leaves D ids xs nf c))%N /\
  (snd (conceal_leaves D ids xs nf c) <= c + N.of_nat (length xs))%N /\
  length (fst (fst (conceal_leaves D ids xs nf c))) = length xs.
Proof.
  induction xs as [|[d y|p m] xs IH]; intros nf c h; cbn [counted_leaves conceal_leaves].
  - cbn. split; [|lia]. f_equal. lia.
  - destruct (IH nf c h) as [-> [A [B C]]]. destruct (conceal_leaves D ids xs nf c) as [[r n] k]. cbn in *.
    split; [reflexivity|lia].
  - destruct (existsb (b32_eqb p) ids).
    + destruct (IH (os_remove b32_ltb p nf) c h) as [-> [A [B C]]].
      destruct (conceal_leaves D ids xs (os_remove b32_ltb p nf) c) as [[r n] k]. cbn in *. split; [reflexivity|lia].
    + destruct (IH nf (c + 1)%N (h + 1)%N) as [-> [A [B C]]].
      destruct (conceal_leaves D ids xs nf (c + 1)) as [[r n] k]. cbn in *. split; [|lia]. f_equal. lia.
Qed.

Definition hidden_node (n : tree_node) : Prop := match n with ConcealedNode _ _ => True | _ => False end.

(** what a pass over [a] nodes leaving [b] of them does to the counters *)
Definition pass_facts (a b : nat) (c L h M c' L' h' M' : N) : Prop :=
  b <= a /\ (1 <= a -> 1 <= b) /\ (c' = c + N.of_nat (a - b))%N /\ (h' = h + N.of_nat (a - b))%N /\
  (L + (if Nat.eqb a 0 then 0 else 1) <= L' <= L + N.of_nat a)%N /\ (M <= M')%N /\
  (2 * (M' - M) + (N.of_nat b - 1) * (N.of_nat b - 2) <= (N.of_nat a - 1) * (N.of_nat a - 2))%N.
Definition pass_ok (md : mode) (D : nat) (xs : list tree_node) (o c L h M : N) : Prop :=
  match counted_pass md D xs o c L h M with
  | Ret (r, o', c', (L', h', M')) =>
      conceal_pass md D xs o c = Ret (r, o', c') /\
      pass_facts (length xs) (length r) c L h M c' L' h' M' /\
      (Forall hidden_node xs -> L' = (L + N.of_nat (length r))%N /\ Forall hidden_node r)
  | Panic p => conceal_pass md D xs o c = Panic p
  end.

Lemma square_step a b x : b <= a -> (1 <= a -> 1 <= b) ->
  (2 * x + (N.of_nat b - 1) * (N.of_nat b - 2) <= (N.of_nat a - 1) * (N.of_nat a - 2))%N ->
  (2 * x + (N.of_nat (S b) - 1) * (N.of_nat (S b) - 2) <= (N.of_nat (S a) - 1) * (N.of_nat (S a) - 2))%N.
Proof.
  intros A B I. destruct a as [|a]; [assert (b = 0) by lia; subst b; cbn in *; lia|].
  destruct b as [|b]; [lia|]. replace (N.of_nat (S (S b)) - 1)%N with (N.of_nat b + 1)%N by lia.
  replace (N.of_nat (S (S b)) - 2)%N with (N.of_nat b) by lia.
  replace (N.of_nat (S (S a)) - 1)%N with (N.of_nat a + 1)%N by lia.
  replace (N.of_nat (S (S a)) - 2)%N with (N.of_nat a) by lia.
  replace (N.of_nat (S b) - 1)%N with (N.of_nat b) in I by lia.
  replace (N.of_nat (S a) - 1)%N with (N.of_nat a) in I by lia.
  destruct a as [|a]; [assert (b = 0) by lia; subst b; cbn in *; lia|].
  replace (N.of_nat (S (S a)) - 2)%N with (N.of_nat a) in I by lia.
  destruct b as [|b]; [rewrite !Nat2N.inj_succ in *; change (N.of_nat 0) with 0%N in *; nia|].
  replace (N.of_nat (S (S b)) - 2)%N with (N.of_nat b) in I by lia. nia.
Qed.
Lemma facts_skip a b c L h M c' L' h' M' : pass_facts a b c (L + 1) h M c' L' h' M' ->
  pass_facts (S a) (S b) c L h M c' L' h' M'.
Proof.
  unfold pass_facts. intros [A [B [C [E [F [G I]]]]]]. cbn [Nat.eqb]. pose proof (square_step _ _ _ A B I) as I2.
  destruct (Nat.eqb a 0); repeat split; try exact I2; lia.
Qed.
Lemma facts_two a b c L h M c' L' h' M' : pass_facts a b c (L + 1) h M c' L' h' M' ->
  pass_facts (S (S a)) (S (S b)) c L h M c' L' h' M'.
Proof.
  unfold pass_facts. intros [A [B [C [E [F [G I]]]]]]. cbn [Nat.eqb]. pose proof (square_step _ _ _ A B I) as I2.
  assert (I3 := square_step (S a) (S b) (M' - M)%N ltac:(lia) ltac:(lia) I2).
  destruct (Nat.eqb a 0); repeat split; try exact I3; lia.
Qed.
Lemma facts_merge a b c L h M c' L' h' M' :
  pass_facts a b (c + 1) (L + 1) (h + 1) (M + N.of_nat a) c' L' h' M' ->
  pass_facts (S (S a)) (S b) c L h M c' L' h' M'.
Proof.
  unfold pass_facts. intros [A [B [C [E [F [G I]]]]]]. cbn [Nat.eqb].
  assert (I2 : (2 * (M' - M) + (N.of_nat (S b) - 1) * (N.of_nat (S b) - 2) <=
                (N.of_nat (S (S a)) - 1) * (N.of_nat (S (S a)) - 2))%N).
  { remember (M' - (M + N.of_nat a))%N as x eqn:Ex. replace (M' - M)%N with (N.of_nat a + x)%N by lia. clear - A B I.
    replace (N.of_nat (S (S a)) - 1)%N with (N.of_nat a + 1)%N by lia.
    replace (N.of_nat (S (S a)) - 2)%N with (N.of_nat a) by lia.
    destruct a as [|a].
    { assert (b = 0) by lia. subst b. change (N.of_nat 0 - 1)%N with 0%N in *. change (N.of_nat 0) with 0%N in *.
      change (N.of_nat 1 - 1)%N with 0%N. lia. }
    destruct b as [|b]; [lia|]. replace (N.of_nat (S (S b)) - 1)%N with (N.of_nat b + 1)%N by lia.
    replace (N.of_nat (S (S b)) - 2)%N with (N.of_nat b) by lia.
    replace (N.of_nat (S b) - 1)%N with (N.of_nat b) in I by lia.
    replace (N.of_nat (S a) - 1)%N with (N.of_nat a) in I by lia.
    destruct a as [|a].
    { assert (b = 0) by lia. subst b. change (N.of_nat 0) with 0%N in *. change (N.of_nat 1) with 1%N in *. lia. }
    replace (N.of_nat (S (S a)) - 2)%N with (N.of_nat a) in I by lia.
    destruct b as [|b]; [rewrite !Nat2N.inj_succ in *; change (N.of_nat 0) with 0%N in *; nia|].
    replace (N.of_nat (S (S b)) - 2)%N with (N.of_nat b) in I by lia. rewrite !Nat2N.inj_succ in *. nia. }
  destruct (Nat.eqb a 0); repeat split; try exact I2; lia.
Qed.

Lemma facts_nil c L h M : pass_facts 0 0 c L h M c L h M.
Proof. unfold pass_facts. rewrite N.sub_diag. cbn [Nat.eqb]. change (N.of_nat (0 - 0)) with 0%N. change (N.of_nat 0) with 0%N. lia. Qed.
Lemma facts_one c L h M : pass_facts 1 1 c L h M c (L + 1) h M.
Proof. apply facts_skip, facts_nil. Qed.

Lemma pass_ok_all md D : forall n xs o c L h M, length xs <= n -> pass_ok md D xs o c L h M.
Proof.
  induction n as [|n IH]; intros xs o c L h M Hn.
  { destruct xs; [|cbn in Hn; lia]. cbn. split; [reflexivity|]. split; [apply facts_nil|intros F; split; [lia|exact F]]. }
  destruct xs as [|x xs]; [cbn; split; [reflexivity|split; [apply facts_nil|intros F; split; [lia|exact F]]]|].
  cbn [length] in Hn. unfold pass_ok. 
  assert (SK : forall y ys o' k, length ys <= n -> hidden_node y \/ ~ hidden_node x -> length ys = length xs -> (Forall hidden_node xs -> Forall hidden_node ys) ->
    k = (' (r, o, c) <- conceal_pass md D ys o' c ;; Ret (y :: r, o, c)) ->
    match (' (r, o, c, w) <- counted_pass md D ys o' c (L + 1)%N h M ;; Ret (y :: r, o, c, w)) with
    | Ret (r, o', c', (L', h', M')) => k = Ret (r, o', c') /\
        pass_facts (S (length xs)) (length r) c L h M c' L' h' M' /\
        (Forall hidden_node (x :: xs) -> L' = (L + N.of_nat (length r))%N /\ Forall hidden_node r)
    | Panic p => k = Panic p end).
  { intros y ys o' k Ly Hy Le Hf ->. specialize (IH ys o' c (L + 1)%N h M Ly). unfold pass_ok in IH.
    destruct (counted_pass md D ys o' c (L + 1) h M) as [[[[r o2] c2] [[L2 h2] M2]]|p]; cbn [bind].
    - destruct IH as [-> [F1 F2]]. cbn [bind length]. split; [reflexivity|]. rewrite <- Le. split; [apply facts_skip; exact F1|].
      intros F. inversion F; subst. destruct F2 as [-> F3]; [auto|]. split; [lia|]. constructor; [|exact F3].
      destruct Hy as [Hy|Hy]; [exact Hy|contradiction].
    - rewrite IH. reflexivity. }
  cbn [counted_pass conceal_pass]. destruct x as [d1 h1|p1 m1].
  - destruct xs as [|[d2 h2|p2 m2] xs]; cbn [length] in *.
    + destruct (node_span md D d1) as [s|]; cbn [bind]; [|reflexivity].
      destruct (u32_add md o s) as [o'|]; cbn [bind]; [|reflexivity]. split; [reflexivity|].
      split; [apply facts_one|]. intros F. cbn. split; [lia|exact F].
    + destruct (d1 =? d2).
      * destruct (u5_sub d1 1) as [d|]; cbn [bind]; [|reflexivity].
        destruct (node_span md D d) as [pow|]; cbn [bind]; [|reflexivity].
        destruct (u32_rem o pow) as [rem|]; cbn [bind]; [|reflexivity].
        destruct (negb (rem =? 0)%N).
        -- destruct (node_span md D d1) as [s|]; cbn [bind]; [|reflexivity].
           destruct (u32_add md o s) as [o'|]; cbn [bind]; [|reflexivity].
           apply (SK _ (ConcealedNode d2 h2 :: xs)); [cbn; lia|left; exact I|reflexivity|auto|reflexivity].
        -- destruct (u32_add md o pow) as [o'|]; cbn [bind]; [|reflexivity].
           specialize (IH xs o' (c + 1)%N (L + 1)%N (h + 1)%N (M + N.of_nat (length xs))%N). unfold pass_ok in IH.
           destruct (counted_pass md D xs o' (c + 1) (L + 1) (h + 1) (M + N.of_nat (length xs))) as [[[[r o2] c2] [[L2 k2] M2]]|p];
             cbn [bind].
           ++ destruct IH as [-> [F1 F2]]; [lia|]. cbn [bind length]. split; [reflexivity|]. split; [apply facts_merge; exact F1|].
              intros F. inversion F as [|? ? _ F']; subst. inversion F'; subst. destruct F2 as [-> F3]; [assumption|].
              split; [lia|]. constructor; [exact I|exact F3].
           ++ rewrite IH by lia. reflexivity.
      * destruct (node_span md D d1) as [s|]; cbn [bind]; [|reflexivity].
        destruct (u32_add md o s) as [o'|]; cbn [bind]; [|reflexivity].
        apply (SK _ (ConcealedNode d2 h2 :: xs)); [cbn; lia|left; exact I|reflexivity|auto|reflexivity].
    + destruct (node_span md D d1) as [s|]; cbn [bind]; [|reflexivity].
      destruct (u32_add md o s) as [o'|]; cbn [bind]; [|reflexivity].
      destruct (u32_add md o' 1) as [o''|]; cbn [bind]; [|reflexivity].
      specialize (IH xs o'' c (L + 1)%N h M). unfold pass_ok in IH.
      destruct (counted_pass md D xs o'' c (L + 1) h M) as [[[[r o2] c2] [[L2 k2] M2]]|p]; cbn [bind].
      * destruct IH as [-> [F1 _]]; [lia|]. cbn [bind length]. split; [reflexivity|]. split; [apply facts_two; exact F1|].
        intros F. inversion F as [|? ? _ F']; subst. inversion F' as [|? ? X]. destruct (X : False).
      * rewrite IH by lia. reflexivity.
  - destruct xs as [|[d2 h2|p2 m2] xs]; cbn [length] in *.
    + destruct (u32_add md o 1) as [o'|]; cbn [bind]; [|reflexivity].
      apply (SK _ []); [cbn; lia|right; intros []|reflexivity|auto|reflexivity].
    + destruct (u32_add md o 1) as [o'|]; cbn [bind]; [|reflexivity].
      apply (SK _ (ConcealedNode d2 h2 :: xs)); [cbn; lia|right; intros []|reflexivity|auto|reflexivity].
    + destruct (u32_add md o 2) as [o'|]; cbn [bind]; [|reflexivity].
      specialize (IH xs o' c (L + 1)%N h M). unfold pass_ok in IH.
      destruct (counted_pass md D xs o' c (L + 1) h M) as [[[[r o2] c2] [[L2 k2] M2]]|p]; cbn [bind].
      * destruct IH as [-> [F1 _]]; [lia|]. cbn [bind length]. split; [reflexivity|]. split; [apply facts_two; exact F1|].
        intros F. inversion F as [|? ? X]. destruct (X : False).
      * rewrite IH by lia. reflexivity.
Qed.

(** ** The loop *)
Definition loop_facts (a b : nat) (c : N) (w : work) (c' : N) (w' : work) : Prop :=
  1 <= b <= a /\ (c' = c + N.of_nat (a - b))%N /\ (w_hashed w' = w_hashed w + N.of_nat (a - b))%N /\
  (w_passes w + 1 <= w_passes w' <= w_passes w + N.of_nat (a - b) + 1)%N /\
  (w_looks w <= w_looks w' <= w_looks w + (w_passes w' - w_passes w) * N.of_nat a)%N /\
  (2 * (w_looks w' - w_looks w) + N.of_nat b * (N.of_nat b - 1) <= N.of_nat a * (N.of_nat a + 1))%N /\
  (w_moved w <= w_moved w')%N /\
  (2 * (w_moved w' - w_moved w) + (N.of_nat b - 1) * (N.of_nat b - 2) <= (N.of_nat a - 1) * (N.of_nat a - 2))%N.
Lemma loop_ok md D : forall fuel xs c w,
  match counted_loop fuel md D xs c w with
  | Ret (r, c', w') => conceal_loop fuel md D xs c = Ret (r, c') /\
      (w_passes w' <= w_passes w + N.of_nat fuel)%N /\
      (xs <> [] -> loop_facts (length xs) (length r) c w c' w')
  | Panic p => conceal_loop fuel md D xs c = Panic p
  end.
Proof.
  induction fuel as [|fuel IH]; intros xs c w; cbn [counted_loop conceal_loop]; [reflexivity|].
  destruct (debug_assert md _); cbn [bind]; [|reflexivity].
  pose proof (pass_ok_all md D (length xs) xs 0 c (w_looks w) (w_hashed w) (w_moved w) (le_n _)) as P. unfold pass_ok in P.
  destruct (counted_pass md D xs 0 c (w_looks w) (w_hashed w) (w_moved w)) as [[[[r o] c1] [[L1 h1] M1]]|p]; cbn [bind];
    [|rewrite P; reflexivity].
  destruct P as [-> [F _]]. cbn [bind].
  destruct (c1 =? c)%N eqn:E.
  - cbn [w_passes]. split; [reflexivity|]. split; [lia|]. intros NE. apply N.eqb_eq in E.
    destruct F as [F1 [F2 [F3 [F4 [F5 [F6 F7]]]]]]. unfold loop_facts. cbn [w_passes w_looks w_hashed w_moved].
    assert (La : 1 <= length xs) by (destruct xs; [congruence|cbn; lia]).
    assert (Eb : length r = length xs) by lia. rewrite Eb in *. replace (length xs =? 0) with false in F5 by (symmetry; apply Nat.eqb_neq; lia).
    repeat split; try lia. 
  - destruct (debug_assert md _); cbn [bind]; [|reflexivity].
    specialize (IH r c1 (Work (w_passes w + 1) L1 h1 M1)). cbn [w_passes] in IH.
    destruct (counted_loop fuel md D r c1 (Work (w_passes w + 1) L1 h1 M1)) as [[[r2 c2] w2]|p]; [|exact IH].
    destruct IH as [-> [P1 IH]]. split; [reflexivity|]. split; [lia|]. intros NE. apply N.eqb_neq in E.
    destruct F as [F1 [F2 [F3 [F4 [F5 [F6 F7]]]]]].
    assert (La : 1 <= length xs) by (destruct xs; [congruence|cbn; lia]).
    destruct IH as [G1 [G2 [G3 [G4 [G5 [G6 [G7 G8]]]]]]].
    { specialize (F2 La). destruct r; [cbn in F2; lia|discriminate]. }
    cbn [w_passes w_looks w_hashed w_moved] in *. replace (length xs =? 0) with false in F5 by (symmetry; apply Nat.eqb_neq; lia).
    unfold loop_facts.
    assert (K1 : (w_looks w <= w_looks w2 <= w_looks w + (w_passes w2 - w_passes w) * N.of_nat (length xs))%N).
    { assert ((w_passes w2 - w_passes w = (w_passes w2 - (w_passes w + 1)) + 1)%N) as -> by lia.
      rewrite N.mul_add_distr_r, N.mul_1_l.
      assert ((w_passes w2 - (w_passes w + 1)) * N.of_nat (length r) <= (w_passes w2 - (w_passes w + 1)) * N.of_nat (length xs))%N
        by (apply N.mul_le_mono_l; lia). lia. }
    assert (K2 : (2 * (w_looks w2 - w_looks w) + N.of_nat (length r2) * (N.of_nat (length r2) - 1) <=
                  N.of_nat (length xs) * (N.of_nat (length xs) + 1))%N).
    { replace (w_looks w2 - w_looks w)%N with ((w_looks w2 - L1) + (L1 - w_looks w))%N by lia.
      assert (L1 - w_looks w <= N.of_nat (length xs))%N by lia.
      assert (N.of_nat (length r) + 1 <= N.of_nat (length xs))%N by lia.
      remember (L1 - w_looks w)%N as y. remember (w_looks w2 - L1)%N as z. remember (N.of_nat (length r2) * (N.of_nat (length r2) - 1))%N as q.
      remember (N.of_nat (length xs)) as x. remember (N.of_nat (length r)) as x1.
      clear - G6 H0 H1. assert (x1 * (x1 + 1) <= (x - 1) * x)%N by nia. nia. }
    repeat split; try lia.
Qed.
Lemma loop_more md D : forall fuel fuel' xs c w x, fuel <= fuel' -> counted_loop fuel md D xs c w = Ret x ->
  counted_loop fuel' md D xs c w = Ret x.
Proof.
  induction fuel as [|fuel IH]; intros fuel' xs c w x L; cbn [counted_loop]; [discriminate|].
  destruct fuel' as [|fuel']; [lia|]. cbn [counted_loop].
  destruct (debug_assert md _); cbn [bind]; [|discriminate].
  destruct (counted_pass _ _ _ _ _ _ _ _) as [[[[r o] c1] [[L1 h1] M1]]|p]; cbn [bind]; [|discriminate].
  destruct (c1 =? c)%N; [auto|]. destruct (debug_assert md _); cbn [bind]; [|discriminate]. apply IH. lia.
Qed.

(** ** Concealing *)
Lemma except_ok md b ids :
  match counted_except md b ids with
  | Ret (b', r, w) => conceal_except md b ids = Ret (b', r) /\
      match r with
      | Ok n => w_hashed w = n /\
          exists xs k xs', length xs = length (mb_cross_section b) /\ (k <= N.of_nat (length xs))%N /\
            xs = map (keep_node (mb_depth b) ids) (mb_cross_section b) /\ k = dropped ids (mb_cross_section b) /\
            mb_cross_section b' = xs' /\
            counted_loop (S (length xs)) md (mb_depth b) xs k (Work 0 0 k 0) = Ret (xs', n, w)
      | Err _ => exists h, w = Work 0 0 h 0 /\ (h <= N.of_nat (length (mb_cross_section b)))%N /\ h = dropped ids (mb_cross_section b)
      end
  | Panic p => conceal_except md b ids = Panic p
  end.
Proof.
  unfold counted_except, conceal_except.
  destruct (counted_leaves_ok (mb_depth b) ids (mb_cross_section b) (os_of_list b32_ltb ids) 0 0) as [-> [_ [B C]]].
  pose proof (conceal_leaves_spec (mb_depth b) ids (mb_cross_section b) (os_of_list b32_ltb ids) 0) as S.
  destruct (conceal_leaves (mb_depth b) ids (mb_cross_section b) (os_of_list b32_ltb ids) 0) as [[xs nf] k]. cbn [fst snd] in *.
  injection S as S1 _ S3. rewrite N.add_0_l in *. rewrite N.sub_0_r.
  destruct nf as [|p nf].
  - pose proof (loop_ok md (mb_depth b) (S (length xs)) xs k (Work 0 0 k 0)) as L.
    destruct (counted_loop _ _ _ _ _ _) as [[[xs' n] w]|p] eqn:E; cbn [bind]; [|rewrite L; reflexivity].
    destruct L as [-> [_ L]]. cbn [bind]. split; [reflexivity|]. split.
    + destruct xs as [|x xs].
      * cbn [length] in E. cbn [counted_loop counted_pass w_looks w_hashed w_moved w_passes] in E.
        apply bind_inv in E as [u [_ E]]. cbn [bind] in E. rewrite N.eqb_refl in E. injection E as <- <- <-. reflexivity.
      * destruct L as [_ [-> [-> _]]]; [discriminate|]. reflexivity.
    + exists xs, k, xs'. split; [exact C|]. split; [lia|]. split; [exact S1|]. split; [exact S3|]. split; [reflexivity|]. exact E.
  - split; [reflexivity|]. exists k. split; [reflexivity|split; [exact B|exact S3]].
Qed.
Lemma commitment_ok md b :
  (' (c, _) <- counted_commitment md b ;; Ret c) = block_commit_id md b.
Proof.
  unfold counted_commitment, block_commit_id, block_conceal. pose proof (except_ok md b []) as X.
  destruct (counted_except md b []) as [[[c r] w]|p]; cbn [bind]; [|rewrite X; reflexivity].
  destruct X as [-> _]. cbn [bind]. destruct r; [|reflexivity].
  destruct (debug_assert md _); cbn [bind]; [|reflexivity].
  destruct (mb_cross_section c) as [|[[|?] ?|? ?] ?]; reflexivity.
Qed.
End WithHash.

Lemma c104_same : forall (H : Hasher) md,
  (forall b ids, (' (b', r, _) <- counted_except md b ids ;; Ret (b', r)) = conceal_except md b ids) /\
  (forall b, (' (c, _) <- counted_commitment md b ;; Ret c) = block_commit_id md b) /\
  (forall t, (' (c, _) <- counted_tree md t ;; Ret c) = tree_commit_id md t) /\
  (forall p pid msg, (r <- counted_convolve md p pid msg ;; Ret (match r with Ok (c, _) => Ok c | Err e => Err e end)) =
     convolve md p pid msg).
Proof.
  intros H md. split; [|split; [|split]].
  - intros b ids. pose proof (except_ok md b ids) as X.
    destruct (counted_except md b ids) as [[[c r] w]|p]; cbn [bind]; [|rewrite X; reflexivity]. symmetry. apply X.
  - apply commitment_ok.
  - intros t. unfold counted_tree, tree_commit_id, tree_conceal. pose proof (commitment_ok md (block_of_tree t)) as X.
    unfold block_commit_id in X. rewrite <- X. destruct (counted_commitment md (block_of_tree t)) as [[c w]|p]; reflexivity.
  - intros p pid msg. unfold counted_convolve, convolve. destruct (block_with p pid msg) as [[b|e]|q]; cbn [bind]; try reflexivity.
    rewrite <- commitment_ok. destruct (counted_commitment md b) as [[c w]|q]; reflexivity.
Qed.
Lemma c104_hashed : forall (H : Hasher) md b ids b' r w (run : counted_except md b ids = Ret (b', r, w)),
  match r with
  | Ok n => w_hashed w = n
  | Err _ => w_passes w = 0%N /\ w_looks w = 0%N /\ w_moved w = 0%N /\
      w_hashed w = N.of_nat (length (filter (fun e => negb (existsb (b32_eqb (fst e)) ids)) (known_leaves (mb_cross_section b))))
  end.
Proof.
  intros H md b ids b' r w E. pose proof (except_ok md b ids) as X. rewrite E in X. destruct X as [_ X].
  destruct r; [apply X|]. destruct X as [h [-> [_ ->]]]. repeat split.
Qed.
Lemma c104_any : forall (H : Hasher) md b ids b' r w n
  (size : n = N.of_nat (length (mb_cross_section b))) (some : mb_cross_section b <> [])
  (run : counted_except md b ids = Ret (b', r, w)),
  (w_passes w <= n /\ 2 * w_looks w <= n * (n + 1) /\ w_hashed w <= 2 * n - 1 /\ 2 * w_moved w <= (n - 1) * (n - 2))%N.
Proof.
  intros H md b ids b' r w n -> NE E. pose proof (except_ok md b ids) as X. rewrite E in X. destruct X as [_ X].
  assert (1 <= length (mb_cross_section b)) by (destruct (mb_cross_section b); [congruence|cbn; lia]).
  destruct r as [k|p].
  - destruct X as [_ [xs [j [xs' [A [B [_ [_ [_ X]]]]]]]]]. pose proof (loop_ok md (mb_depth b) (S (length xs)) xs j (Work 0 0 j 0)) as L.
    rewrite X in L. destruct L as [_ [_ L]]. destruct L as [L1 [_ [L2 [L3 [_ [L4 [_ L5]]]]]]]; [destruct xs; [cbn in A; lia|discriminate]|].
    cbn [w_passes w_looks w_hashed w_moved] in *. rewrite A, ?N.sub_0_r in *.
    split; [lia|]. split; [eapply N.le_trans; [apply N.le_add_r|exact L4]|]. split; [lia|].
    eapply N.le_trans; [apply N.le_add_r|exact L5].
  - destruct X as [h [-> B]]. cbn [w_passes w_looks w_hashed w_moved]. rewrite !N.mul_0_r.
    split; [lia|]. split; [apply N.le_0_l|]. split; [lia|apply N.le_0_l].
Qed.
Lemma c104_formed : forall (H : Hasher) md b ids b' n w
  (wf : wf_block b) (run : counted_except md b ids = Ret (b', Ok n, w)),
  (w_passes w <= N.of_nat (mb_depth b) + 1)%N /\
  (w_looks w <= (N.of_nat (mb_depth b) + 1) * N.of_nat (length (mb_cross_section b)))%N.
Proof.
  intros H md b ids b' n w [t B] E. pose proof (except_ok md b ids) as X. rewrite E in X.
  destruct X as [_ [_ [xs [k [xs' [A [_ [Exs [_ [_ X]]]]]]]]]]. destruct B as [HD [Hc [Hx Hw]]].
  assert (NE : xs <> []).
  { rewrite Exs, Hx. pose proof (flatten_nonempty 0 t). destruct (flatten 0 t); [congruence|discriminate]. }
  pose proof (pkeep_pwf (mem ids) _ _ _ Hw) as Hk. pose proof (mute_bound_strict _ _ _ Hk) as MB.
  rewrite Hx, keep_flatten in Exs by (apply pwf_loose_of, Hw).
  pose proof (loop_passes md (mb_depth b) (pkeep (mem ids) t) k (S (mb_depth b)) HD (pwf_loose_of _ _ _ Hk)) as LP.
  rewrite <- Exs in LP. specialize (LP ltac:(lia)).
  pose proof (loop_ok md (mb_depth b) (S (mb_depth b)) xs k (Work 0 0 k 0)) as L1.
  pose proof (loop_ok md (mb_depth b) (S (length xs)) xs k (Work 0 0 k 0)) as L2. rewrite X in L2. destruct L2 as [L2 [_ F]].
  rewrite L2 in LP. rewrite LP in L1.
  destruct (counted_loop (S (mb_depth b)) md (mb_depth b) xs k (Work 0 0 k 0)) as [[[r c'] w']|p] eqn:E1; [|discriminate].
  destruct L1 as [_ [L1 _]].
  assert (w' = w).
  { destruct (Nat.le_ge_cases (S (mb_depth b)) (S (length xs))) as [Q|Q].
    - apply (loop_more _ _ _ _ _ _ _ _ Q) in E1. congruence.
    - apply (loop_more _ _ _ _ _ _ _ _ Q) in X. congruence. }
  subst w'. cbn [w_passes] in L1. split; [lia|].
  destruct (F NE) as [_ [_ [_ [_ [G _]]]]]. cbn [w_looks w_passes] in G. rewrite N.sub_0_r, N.add_0_l in G. rewrite A in G.
  assert (w_passes w * N.of_nat (length (mb_cross_section b)) <=
    (N.of_nat (mb_depth b) + 1) * N.of_nat (length (mb_cross_section b)))%N by (apply N.mul_le_mono_r; lia). lia.
Qed.

(** ** A whole level *)
Section Level.
Context {H : Hasher}.

Lemma level_pass md D d : D <= 31 -> d < D -> forall n hs o c L h M, length hs = 2 * n ->
  (o mod sp D d = 0)%N -> (o + N.of_nat n * sp D d <= sp D 0)%N ->
  exists hs', length hs' = n /\
    counted_pass md D (map (ConcealedNode (S d)) hs) o c L h M =
    Ret (map (ConcealedNode d) hs', (o + N.of_nat n * sp D d)%N, (c + N.of_nat n)%N,
         ((L + N.of_nat n)%N, (h + N.of_nat n)%N, (M + N.of_nat n * (N.of_nat n - 1))%N)).
Proof.
  intros HD Hd. induction n as [|n IH]; intros hs o c L h M Hl Ho Hb.
  - destruct hs; [|discriminate]. exists []. split; [reflexivity|]. cbn [map counted_pass]. change (N.of_nat 0) with 0%N.
    rewrite !N.mul_0_l, !N.add_0_r. reflexivity.
  - destruct hs as [|a [|b hs]]; try (cbn in Hl; lia). cbn [length] in Hl.
    assert (P : (0 < sp D d)%N) by apply sp_pos.
    assert (Hb' : (o + sp D d + N.of_nat n * sp D d <= sp D 0)%N) by (rewrite Nat2N.inj_succ, N.mul_succ_l in Hb; lia).
    destruct (IH hs (o + sp D d)%N (c + 1)%N (L + 1)%N (h + 1)%N (M + N.of_nat (length hs))%N) as [hs' [E1 E2]];
      [lia| |exact Hb'|].
    { rewrite <- N.add_mod_idemp_l by lia. rewrite Ho, N.add_0_l. apply N.mod_same. lia. }
    cbn [map counted_pass]. rewrite Nat.eqb_refl. unfold u5_sub. replace (1 <=? S d) with true by reflexivity. cbn [bind].
    replace (S d - 1) with d by lia. rewrite node_span_ok by lia. cbn [bind]. unfold u32_rem.
    replace (sp D d =? 0)%N with false by (symmetry; apply N.eqb_neq; lia). cbn [bind]. rewrite Ho. cbn [N.eqb negb].
    rewrite u32_add_ok by (pose proof (sp_bound D 0 HD); lia). cbn [bind]. rewrite map_length, E2. cbn [bind].
    exists (mh_branches d (width_of D) a b :: hs'). split; [cbn; lia|]. cbn [map].
    replace (length hs) with (2 * n) by lia.
    assert (Q1 : (o + sp D d + N.of_nat n * sp D d = o + N.of_nat (S n) * sp D d)%N) by (rewrite Nat2N.inj_succ, N.mul_succ_l; lia).
    assert (Q2 : (M + N.of_nat (2 * n) + N.of_nat n * (N.of_nat n - 1) = M + N.of_nat (S n) * (N.of_nat (S n) - 1))%N).
    { replace (N.of_nat (2 * n)) with (2 * N.of_nat n)%N by lia. replace (N.of_nat (S n)) with (N.of_nat n + 1)%N by lia.
      generalize (N.of_nat n). clear. intros x. replace (x + 1 - 1)%N with x by lia.
      destruct (N.eq_dec x 0) as [->|NZ]; [lia|]. replace x with (x - 1 + 1)%N at 2 by lia. nia. }
    rewrite Q1, Q2. replace (c + 1 + N.of_nat n)%N with (c + N.of_nat (S n))%N by lia.
    replace (L + 1 + N.of_nat n)%N with (L + N.of_nat (S n))%N by lia.
    replace (h + 1 + N.of_nat n)%N with (h + N.of_nat (S n))%N by lia. reflexivity.
Qed.

(** moved by the passes from a level of 2^k nodes up to the root *)
Fixpoint level_moves (k : nat) : N :=
  match k with O => 0 | S k' => 2 ^ N.of_nat k' * (2 ^ N.of_nat k' - 1) + level_moves k' end%N.
Lemma level_moves_closed k : (3 * level_moves k + 3 * 2 ^ N.of_nat k = 4 ^ N.of_nat k + 2)%N.
Proof.
  induction k as [|k IH]; [reflexivity|]. cbn [level_moves]. rewrite Nat2N.inj_succ, !N.pow_succ_r'.
  assert (S4 : (4 ^ N.of_nat k = 2 ^ N.of_nat k * 2 ^ N.of_nat k)%N).
  { rewrite <- N.pow_mul_l. reflexivity. }
  rewrite S4 in *. pose proof (N.pow_nonzero 2 (N.of_nat k)). remember (2 ^ N.of_nat k)%N as x. nia.
Qed.
Lemma level_loop md D : D <= 31 -> forall k fuel hs c w, k <= D -> k < fuel -> length hs = 2 ^ k ->
  exists x, counted_loop fuel md D (map (ConcealedNode k) hs) c w =
    Ret ([ConcealedNode 0 x], (c + (2 ^ N.of_nat k - 1))%N,
         Work (w_passes w + N.of_nat k + 1) (w_looks w + 2 ^ N.of_nat k)
              (w_hashed w + (2 ^ N.of_nat k - 1)) (w_moved w + level_moves k)).
Proof.
  intros HD. induction k as [|k IH]; intros fuel hs c w Hk Hf Hl; (destruct fuel as [|fuel]; [lia|]).
  - destruct hs as [|x [|y hs]]; try (cbn in Hl; lia). exists x. cbn [map counted_loop negb].
    replace (debug_assert md true) with (Ret tt) by (destruct md; reflexivity). cbn [bind counted_pass].
    rewrite node_span_ok by lia. cbn [bind]. rewrite u32_add_ok by (pose proof (sp_bound D 0 HD); lia). cbn [bind].
    rewrite N.eqb_refl. cbn [level_moves]. change (2 ^ N.of_nat 0)%N with 1%N. change (1 - 1)%N with 0%N.
    rewrite !N.add_0_r. reflexivity.
  - cbn [counted_loop].
    assert (NE : negb (match map (ConcealedNode (S k)) hs with [] => true | _ => false end) = true).
    { destruct hs; [pose proof (Nat.pow_nonzero 2 (S k)); cbn [length] in Hl; lia|reflexivity]. }
    rewrite NE. replace (debug_assert md true) with (Ret tt) by (destruct md; reflexivity). cbn [bind].
    assert (SP : (N.of_nat (2 ^ k) * sp D k = width_of D)%N).
    { unfold sp, width_of. rewrite of_nat_pow2 || (rewrite Nat2N.inj_pow). change (N.of_nat 2) with 2%N.
      rewrite <- N.pow_add_r. f_equal. lia. }
    destruct (level_pass md D k HD ltac:(lia) (2 ^ k) hs 0 c (w_looks w) (w_hashed w) (w_moved w)) as [hs' [E1 E2]].
    + rewrite Hl. cbn [Nat.pow]. lia.
    + rewrite N.mod_0_l by (pose proof (sp_pos D k); lia). reflexivity.
    + rewrite SP, sp_0. lia.
    + rewrite E2. cbn [bind]. rewrite N.add_0_l, SP.
      assert (PK : (1 <= N.of_nat (2 ^ k))%N) by (pose proof (Nat.pow_nonzero 2 k); lia).
      replace (c + N.of_nat (2 ^ k) =? c)%N with false by (symmetry; apply N.eqb_neq; lia).
      rewrite N.eqb_refl. replace (debug_assert md true) with (Ret tt) by (destruct md; reflexivity). cbn [bind].
      destruct (IH fuel hs' (c + N.of_nat (2 ^ k))%N
        (Work (w_passes w + 1) (w_looks w + N.of_nat (2 ^ k)) (w_hashed w + N.of_nat (2 ^ k))
              (w_moved w + N.of_nat (2 ^ k) * (N.of_nat (2 ^ k) - 1)))) as [x E]; [lia|lia|exact E1|].
      exists x. rewrite E. cbn [w_passes w_looks w_hashed w_moved level_moves].
      rewrite Nat2N.inj_pow in *. change (N.of_nat 2) with 2%N in *. rewrite Nat2N.inj_succ, N.pow_succ_r'.
      remember (2 ^ N.of_nat k)%N as p. f_equal. f_equal; [f_equal; lia|]. f_equal; lia.
Qed.
End Level.

Lemma leaf_count (f : N -> option (bytes32 * bytes32)) (g : N -> tree_node) l :
  (forall x, In x l -> g x = match f x with Some (p, m) => CommitmentLeaf p m | None => g x end) ->
  (forall x, In x l -> f x = None -> hidden_node (g x)) ->
  (dropped [] (map g l) + N.of_nat (length (filter (fun x => match f x with Some _ => false | None => true end) l)) =
   N.of_nat (length l))%N.
Proof.
  assert (AF : forall k : list (bytes32 * bytes32), filter (fun e => negb (mem [] (fst e))) k = k).
  { induction k as [|y k IHk]; [reflexivity|]. cbn [filter]. rewrite IHk. reflexivity. }
  unfold dropped. rewrite AF. clear AF. induction l as [|x l IH]; intros G1 G2; [reflexivity|].
  assert (IH' := IH (fun y I => G1 y (or_intror I)) (fun y I => G2 y (or_intror I))). clear IH.
  specialize (G1 x (or_introl eq_refl)). specialize (G2 x (or_introl eq_refl)). cbn [map filter].
  destruct (f x) as [[p m]|].
  - rewrite G1. cbn [known_leaves length]. lia.
  - destruct (g x); [|destruct (G2 eq_refl)]. cbn [known_leaves length]. lia.
Qed.

Lemma c104_tree : forall (H : Hasher) md t d (depth : d = mt_depth t) (bounded : d <= 31),
  exists c moved, counted_tree md t =
    Ret (c, Work (N.of_nat d + 1) (2 ^ N.of_nat d) (2 * 2 ^ N.of_nat d) moved) /\
    (3 * moved + 3 * 2 ^ N.of_nat d = 4 ^ N.of_nat d + 2)%N.
Proof.
  intros H md t d -> HD. unfold counted_tree, counted_commitment, counted_except.
  destruct (counted_leaves_ok (mb_depth (block_of_tree t)) [] (mb_cross_section (block_of_tree t)) (os_of_list b32_ltb []) 0 0)
    as [-> _].
  rewrite conceal_leaves_spec. cbn [os_of_list fold_left fold_right].
  assert (NF : forall l, fold_left (fun s p => os_remove b32_ltb p s) (filter (mem []) l) ([] : list bytes32) = []).
  { induction l; [reflexivity|]. exact IHl. }
  rewrite NF.
  set (g := fun pos => match om_get N.ltb pos (mt_map t) with
            | Some (p, m) => CommitmentLeaf p m
            | None => ConcealedNode (mt_depth t) (leaf_commit_id (Entropy (mt_entropy t) pos)) end).
  assert (BX : mb_cross_section (block_of_tree t) = map g (N_range (mt_width_limit t))) by reflexivity.
  assert (LC := leaf_count (fun pos => om_get N.ltb pos (mt_map t)) g (N_range (mt_width_limit t))).
  rewrite BX. change (mb_depth (block_of_tree t)) with (mt_depth t).
  assert (RL : length (N_range (mt_width_limit t)) = 2 ^ mt_depth t).
  { unfold N_range, mt_width_limit, width_of. rewrite map_length, seq_length.
    rewrite <- (Nat2N.id (2 ^ mt_depth t)). f_equal. rewrite Nat2N.inj_pow. reflexivity. }
  assert (KM : exists hs, length hs = 2 ^ mt_depth t /\
    map (keep_node (mt_depth t) []) (map g (N_range (mt_width_limit t))) = map (ConcealedNode (mt_depth t)) hs).
  { rewrite <- RL. clear. induction (N_range (mt_width_limit t)) as [|x l [hs [A B]]]; [exists []; auto|].
    cbn [map]. unfold g at 1. destruct (om_get N.ltb x (mt_map t)) as [[p m]|].
    - exists (HASH (s_leaf p m) :: hs). cbn [keep_node mem existsb map length]. rewrite B. auto.
    - exists (leaf_commit_id (Entropy (mt_entropy t) x) :: hs). cbn [keep_node map length]. rewrite B. auto. }
  destruct KM as [hs [KL KM]]. rewrite KM.
  destruct (level_loop md (mt_depth t) HD (mt_depth t) (S (length (map (ConcealedNode (mt_depth t)) hs))) hs
    (0 + dropped [] (map g (N_range (mt_width_limit t))))%N
    (Work 0 0 (0 + (0 + dropped [] (map g (N_range (mt_width_limit t))) - 0))%N 0)) as [x E]; [lia| |exact KL|].
  { rewrite map_length, KL. pose proof (Nat.pow_gt_lin_r 2 (mt_depth t)). lia. }
  rewrite E. cbn [bind with_cross_section mb_cross_section length Nat.eqb].
  replace (debug_assert md true) with (Ret tt) by (destruct md; reflexivity). cbn [bind w_passes w_looks w_hashed w_moved].
  eexists. exists (level_moves (mt_depth t)). split; [|apply level_moves_closed].
  rewrite RL, Nat2N.inj_pow in LC. change (N.of_nat 2) with 2%N in LC.
  assert (LC2 := LC ltac:(intros y _; unfold g; destruct (om_get N.ltb y (mt_map t)) as [[p m]|]; reflexivity)
                    ltac:(intros y _ Z; unfold g; rewrite Z; exact I)).
  pose proof (N.pow_nonzero 2 (N.of_nat (mt_depth t))).
  apply (f_equal Ret). apply (f_equal2 pair); [reflexivity|]. f_equal; lia.
Qed.

(** ** Paths *)
Fixpoint combed (t : ptree) : Prop :=
  match t with
  | PConc _ => True
  | PLeaf _ _ => False
  | PBr l r => (is_conc l = true /\ combed r) \/ (combed l /\ is_conc r = true)
  end.
Lemma combed_hidden t : forall d, combed t -> Forall hidden_node (flatten d t).
Proof.
  induction t as [h|p m|l IHl r IHr]; intros d C; cbn in *.
  - repeat constructor.
  - destruct C.
  - apply Forall_app. destruct C as [[A B]|[A B]].
    + destruct l; try discriminate. split; [repeat constructor|auto].
    + destruct r; try discriminate. split; [auto|repeat constructor].
Qed.
Lemma combed_merges t : combed t -> pmerges t = (if is_conc t then 0 else 1)%N.
Proof.
  induction t as [h|p m|l IHl r IHr]; intros C; cbn [is_conc]; [reflexivity|destruct C|].
  destruct (is_conc l && is_conc r) eqn:E.
  - destruct l, r; try discriminate. reflexivity.
  - rewrite pmerges_br by exact E. destruct C as [[A B]|[A B]].
    + rewrite A in E. cbn in E. rewrite (IHr B), E. destruct l; try discriminate. reflexivity.
    + rewrite B, andb_true_r in E. rewrite (IHl A), E. destruct r; try discriminate. reflexivity.
Qed.
Lemma combed_step {H : Hasher} W t : forall d, combed t -> combed (pstep W d t).
Proof.
  induction t as [h|p m|l IHl r IHr]; intros d C; [exact I|destruct C|].
  destruct (is_conc l && is_conc r) eqn:E.
  - destruct l, r; try discriminate. exact I.
  - rewrite pstep_br by exact E. cbn [combed] in *. destruct C as [[A B]|[A B]].
    + left. split; [destruct l; try discriminate; reflexivity|auto].
    + right. split; [auto|destruct r; try discriminate; reflexivity].
Qed.
Lemma combed_path {H : Hasher} path : forall pos p m, combed (pkeep (mem []) (path_tree path pos p m)).
Proof.
  induction path as [|h path IH]; intros pos p m; [exact I|]. cbn [path_tree].
  destruct (_ <=? pos)%N; cbn [pkeep combed is_conc]; [left|right]; auto.
Qed.
Lemma path_length path : forall d pos p m, length (flatten d (path_tree path pos p m)) = S (length path).
Proof.
  induction path as [|h path IH]; intros d pos p m; [reflexivity|]. cbn [path_tree].
  destruct (_ <=? pos)%N; cbn [flatten]; rewrite app_length, IH; cbn [length]; lia.
Qed.

Section Paths.
Context {H : Hasher}.
Lemma comb_loop md D : D <= 31 -> forall n t fuel c w, pwf_loose D 0 t -> combed t -> length (flatten 0 t) = S n -> n < fuel ->
  exists x w', counted_loop fuel md D (flatten 0 t) c w = Ret ([ConcealedNode 0 x], (c + N.of_nat n)%N, w') /\
    (w_passes w' = w_passes w + N.of_nat n + 1)%N /\ (w_hashed w' = w_hashed w + N.of_nat n)%N /\
    (2 * w_looks w' = 2 * w_looks w + N.of_nat n * (N.of_nat n + 1) + 2)%N.
Proof.
  intros HD. induction n as [|n IH]; intros t fuel c w Hw C L Hf; (destruct fuel as [|fuel]; [lia|]); cbn [counted_loop].
  - assert (T : exists h, t = PConc h).
    { destruct t as [h|p m|l r]; [exists h; reflexivity|destruct C|]. cbn [flatten] in L. rewrite app_length in L.
      pose proof (flatten_nonempty 1 l). pose proof (flatten_nonempty 1 r).
      destruct (flatten 1 l), (flatten 1 r); try congruence. cbn in L. lia. }
    destruct T as [h ->]. cbn [flatten negb].
    replace (debug_assert md true) with (Ret tt) by (destruct md; reflexivity). cbn [bind counted_pass].
    rewrite node_span_ok by lia. cbn [bind]. rewrite u32_add_ok by (pose proof (sp_bound D 0 HD); lia). cbn [bind].
    rewrite N.eqb_refl. exists h. eexists. split; [rewrite N.add_0_r; reflexivity|]. cbn [w_passes w_hashed w_looks]. lia.
  - assert (NC : is_conc t = false) by (destruct t; [discriminate|reflexivity|reflexivity]).
    assert (NE : negb (match flatten 0 t with [] => true | _ => false end) = true) by (destruct (flatten 0 t); [discriminate|reflexivity]).
    rewrite NE. replace (debug_assert md true) with (Ret tt) by (destruct md; reflexivity). cbn [bind].
    pose proof (pass_ok_all md D _ (flatten 0 t) 0 c (w_looks w) (w_hashed w) (w_moved w) (le_n _)) as P. unfold pass_ok in P.
    rewrite pass_root in P by assumption. pose proof (pstep_length (width_of D) 0 t) as PL.
    rewrite (combed_merges t C), NC in *.
    destruct (counted_pass md D (flatten 0 t) 0 c (w_looks w) (w_hashed w) (w_moved w)) as [[[[r o] c1] [[L1 h1] M1]]|p]; [|discriminate].
    destruct P as [E [F G]]. injection E as E1 E2 E3. subst r o c1. destruct (G (combed_hidden t 0 C)) as [-> _].
    destruct F as [_ [_ [_ [-> _]]]]. cbn [bind].
    replace (c + 1 =? c)%N with false by (symmetry; apply N.eqb_neq; lia). rewrite N.eqb_refl.
    replace (debug_assert md true) with (Ret tt) by (destruct md; reflexivity). cbn [bind].
    assert (LN : length (flatten 0 (pstep (width_of D) 0 t)) = S n) by lia. rewrite LN, L.
    destruct (IH (pstep (width_of D) 0 t) fuel (c + 1)%N
      (Work (w_passes w + 1) (w_looks w + N.of_nat (S n)) (w_hashed w + N.of_nat (S (S n) - S n)) M1)) as [x [w' [A [B1 [B2 B3]]]]];
      [apply pstep_pwf_loose; exact Hw|apply combed_step; exact C|exact LN|lia|].
    exists x, w'. cbn [w_passes w_hashed w_looks] in *. split; [|split; [lia|split; [lia|]]].
    + rewrite A. do 3 f_equal. lia.
    + rewrite B3. replace (N.of_nat (S n)) with (N.of_nat n + 1)%N by lia. generalize (N.of_nat n). intros z. nia.
Qed.

(** block of a proof: the loop which is run *)
Lemma convolve_runs md pf pid msg c w : counted_convolve md pf pid msg = Ret (Ok (c, w)) ->
  length (mp_path pf) <= 31 /\ protocol_id_pos pid (mp_cofactor pf) (length (mp_path pf)) = mp_pos pf /\
  let t := pkeep (mem []) (proof_tree pf pid msg) in
  let D := length (mp_path pf) in
  exists fuel x n w', D < fuel /\
    counted_loop fuel md D (flatten 0 t) 1 (Work 0 0 1 0) = Ret (x, n, w') /\
    w = Work (w_passes w') (w_looks w') (w_hashed w' + 1) (w_moved w').
Proof.
  unfold counted_convolve. destruct (Nat.le_gt_cases (length (mp_path pf)) 31) as [L|L].
  2: { unfold block_with, mp_width_limit, mp_depth, u5_with.
       replace (length (mp_path pf) <=? u5_max) with false by (symmetry; apply Nat.leb_gt; exact L). discriminate. }
  rewrite block_with_spec by exact L. cbv zeta.
  destruct (protocol_id_pos pid (mp_cofactor pf) (length (mp_path pf)) =? mp_pos pf)%N eqn:E; [|discriminate].
  cbn [bind]. intros R. split; [exact L|]. split; [apply N.eqb_eq, E|].
  apply bind_inv in R as [[c1 w1] [R E2]]. injection E2 as <- <-. unfold counted_commitment in R.
  set (b := MBlock (mp_method pf) (length (mp_path pf)) (mp_cofactor pf) (flatten 0 (proof_tree pf pid msg)) None) in *.
  pose proof (except_ok md b []) as X. apply bind_inv in R as [[[b' r] w'] [R1 R2]]. rewrite R1 in X. destruct X as [_ X].
  destruct r as [n|]; [|discriminate]. destruct X as [_ [xs [k [xs' [A [_ [B [C [_ X]]]]]]]]].
  apply bind_inv in R2 as [u [_ R2]]. unfold b in *. cbn [mb_cross_section mb_depth] in *.
  assert (K1 : k = 1%N).
  { rewrite C. unfold dropped, proof_tree. clear. generalize (mp_path pf) (mp_pos pf) 0. intros path.
    assert (Q : forall pos d, known_leaves (flatten d (path_tree path pos pid msg)) = [(pid, msg)]); [|intros; rewrite Q; reflexivity].
    assert (KA : forall a b, known_leaves (a ++ b) = known_leaves a ++ known_leaves b).
    { induction a as [|[? ?|? ?] a IHa]; intros b; cbn; rewrite ?IHa; reflexivity. }
    induction path as [|h path IH]; intros pos d; [reflexivity|]. cbn [path_tree].
    destruct (_ <=? pos)%N; cbn [flatten]; rewrite KA, IH; reflexivity. }
  rewrite keep_flatten in B by (apply pwf_loose_of, path_tree_pwf; lia). subst k xs. rewrite K1 in X.
  exists (S (length (flatten 0 (pkeep (mem []) (proof_tree pf pid msg))))), xs', n, w'.
  split; [rewrite A; unfold proof_tree; rewrite path_length; lia|]. split; [exact X|].
  destruct (mb_cross_section b') as [|[[|?] ?|? ?] ?]; try discriminate. injection R2 as _ <-. reflexivity.
Qed.
End Paths.

Lemma c104_proof : forall (H : Hasher) md pf pid msg c w d
  (size : d = N.of_nat (length (mp_path pf))) (run : counted_convolve md pf pid msg = Ret (Ok (c, w))),
  (w_passes w = d + 1 /\ 2 * w_looks w = d * (d + 1) + 2 /\ w_hashed w = d + 2 /\ 2 * w_moved w <= d * (d - 1))%N.
Proof.
  intros H md pf pid msg c w d -> R. destruct (convolve_runs _ _ _ _ _ _ R) as [L [_ [fuel [x [n [w' [Hf [E ->]]]]]]]].
  assert (HL : length (flatten 0 (pkeep (mem []) (proof_tree pf pid msg))) = S (length (mp_path pf)))
    by (rewrite pkeep_length; apply path_length).
  pose proof (loop_ok md (length (mp_path pf)) fuel (flatten 0 (pkeep (mem []) (proof_tree pf pid msg))) 1 (Work 0 0 1 0)) as F.
  destruct (comb_loop md _ L (length (mp_path pf)) (pkeep (mem []) (proof_tree pf pid msg)) fuel 1 (Work 0 0 1 0)) as [y [w2 [E2 G]]];
    [apply pkeep_pwf_loose, pwf_loose_of, path_tree_pwf; lia|apply combed_path|exact HL|exact Hf|].
  rewrite E in E2. injection E2 as -> -> ->. rewrite E in F. destruct F as [_ [_ F]].
  destruct F as [_ [_ [_ [_ [_ [_ [_ F]]]]]]]; [destruct (flatten _ _); [discriminate|congruence]|].
  cbn [w_passes w_looks w_hashed w_moved] in *. rewrite HL in F. cbn [length] in F.
  rewrite N.sub_0_r in F. change (N.of_nat 1 - 1)%N with 0%N in F. rewrite N.mul_0_l, N.add_0_r in F.
  replace (N.of_nat (S (length (mp_path pf))) - 1)%N with (N.of_nat (length (mp_path pf))) in F by lia.
  replace (N.of_nat (S (length (mp_path pf))) - 2)%N with (N.of_nat (length (mp_path pf)) - 1)%N in F by lia.
  split; [lia|]. split; [lia|]. split; [lia|exact F].
Qed.

(** ** The leftmost path *)
Fixpoint down (k : nat) (hs : list bytes32) : list tree_node :=
  match hs with [] => [] | h :: r => ConcealedNode k h :: down (k - 1) r end.
Lemma down_length hs : forall k, length (down k hs) = length hs.
Proof. induction hs as [|h hs IH]; intros k; cbn; [reflexivity|]. rewrite IH. reflexivity. Qed.
Lemma down_app hs : forall k h, down k (hs ++ [h]) = down k hs ++ [ConcealedNode (k - length hs) h].
Proof.
  induction hs as [|x hs IH]; intros k h; cbn; [rewrite Nat.sub_0_r; reflexivity|]. rewrite IH.
  replace (k - 1 - length hs) with (k - S (length hs)) by lia. reflexivity.
Qed.
Section Left.
Context {H : Hasher}.
Lemma left_frontier path : forall d p m, exists x,
  flatten d (pkeep (mem []) (path_tree path 0 p m)) = ConcealedNode (d + length path) x :: down (d + length path) (rev path).
Proof.
  induction path as [|h path IH]; intros d p m; cbn [path_tree].
  - exists (HASH (s_leaf p m)). cbn. rewrite Nat.add_0_r. reflexivity.
  - replace (2 ^ N.of_nat (length path) <=? 0)%N with false
      by (symmetry; apply N.leb_gt; pose proof (N.pow_nonzero 2 (N.of_nat (length path))); lia).
    cbn [pkeep flatten]. destruct (IH (S d) p m) as [x E]. exists x. rewrite E. cbn [length rev app].
    replace (d + S (length path)) with (S d + length path) by lia. rewrite down_app, rev_length.
    replace (S d + length path - length path) with (S d) by lia. reflexivity.
Qed.
Lemma down_pass md D : forall hs k o c L h M r o' c' L' h' M', length hs <= k ->
  counted_pass md D (down k hs) o c L h M = Ret (r, o', c', (L', h', M')) -> r = down k hs /\ M' = M.
Proof.
  induction hs as [|x hs IH]; intros k o c L h M r o' c' L' h' M' Hk; cbn [down].
  - cbn [counted_pass]. intros [= <- _ _ _ _ <-]. auto.
  - cbn [length] in Hk. destruct hs as [|y hs].
    + cbn [down counted_pass]. intros E. apply bind_inv in E as [s [_ E]]. apply bind_inv in E as [o1 [_ E]].
      injection E as <- _ _ _ _ <-. auto.
    + cbn [down]. cbn [counted_pass]. replace (k =? k - 1) with false by (symmetry; apply Nat.eqb_neq; lia).
      intros E. apply bind_inv in E as [s [_ E]]. apply bind_inv in E as [o1 [_ E]].
      apply bind_inv in E as [[[[r1 o2] c2] [[L2 h2] M2]] [E1 E]]. injection E as <- _ _ _ _ <-.
      apply (IH (k - 1)) in E1; [|cbn [length] in *; lia]. destruct E1 as [-> ->]. split; reflexivity.
Qed.
Lemma left_loop md D : forall k fuel x hs c w r c' w', length hs = k ->
  counted_loop fuel md D (ConcealedNode k x :: down k hs) c w = Ret (r, c', w') ->
  (2 * w_moved w' = 2 * w_moved w + N.of_nat k * (N.of_nat k - 1))%N.
Proof.
  induction k as [|k IH]; intros [|fuel] x hs c w r c' w' Hl; cbn [counted_loop]; try discriminate;
    intros E; apply bind_inv in E as [u [_ E]]; apply bind_inv in E as [[[[r1 o1] c1] [[L1 h1] M1]] [P E]].
  - destruct hs; [|discriminate]. cbn [down counted_pass] in P. apply bind_inv in P as [s [_ P]].
    apply bind_inv in P as [o2 [_ P]]. injection P as <- <- <- <- <- <-. rewrite N.eqb_refl in E. injection E as <- <- <-.
    cbn [w_moved]. lia.
  - destruct hs as [|y hs]; [discriminate|]. injection Hl as Hl. cbn [down] in P.
    cbn [counted_pass] in P. rewrite Nat.eqb_refl in P. unfold u5_sub in P. replace (1 <=? S k) with true in P by reflexivity.
    cbn [bind] in P. apply bind_inv in P as [pow [_ P]]. apply bind_inv in P as [rem [R P]].
    unfold u32_rem in R. destruct (pow =? 0)%N eqn:Z; [discriminate|]. injection R as <-. apply N.eqb_neq in Z.
    rewrite N.mod_0_l in P by exact Z. cbn [N.eqb negb] in P. apply bind_inv in P as [o2 [_ P]].
    apply bind_inv in P as [[[[r2 o3] c2] [[L2 h2] M2]] [P2 P]]. injection P as <- <- <- <- <- <-.
    replace (S k - 1) with k in * by lia. 
    pose proof (pass_ok_all md D _ (down k hs) o2 (c + 1) (w_looks w + 1) (w_hashed w + 1)
      (w_moved w + N.of_nat (length (down k hs))) (le_n _)) as F.
    unfold pass_ok in F. rewrite P2 in F. destruct F as [_ [[_ [_ [F _]]] _]].
    apply down_pass in P2; [|lia]. destruct P2 as [-> ->].
    replace (c2 =? c)%N with false in E by (symmetry; apply N.eqb_neq; lia).
    apply bind_inv in E as [v [_ E]]. rewrite Nat.sub_0_r in E. unfold tn_with in E. apply IH in E; [|exact Hl]. rewrite E. cbn [w_moved]. rewrite down_length, Hl.
    replace (N.of_nat (S k)) with (N.of_nat k + 1)%N by lia. generalize (N.of_nat k). clear. intros z.
    replace (z + 1 - 1)%N with z by lia. destruct (N.eq_dec z 0) as [->|NZ]; [lia|]. 
    assert (z * (z - 1) + z = z * z)%N by (rewrite N.mul_sub_distr_l, N.mul_1_r; assert (z <= z * z)%N by nia; lia). nia.
Qed.
End Left.
Lemma c104_leftmost : forall (H : Hasher) md pf pid msg c w d
  (size : d = N.of_nat (length (mp_path pf))) (first : mp_pos pf = 0%N)
  (run : counted_convolve md pf pid msg = Ret (Ok (c, w))),
  (2 * w_moved w = d * (d - 1))%N.
Proof.
  intros H md pf pid msg c w d -> P R. destruct (convolve_runs _ _ _ _ _ _ R) as [L [_ [fuel [x [n [w' [Hf [E ->]]]]]]]].
  unfold proof_tree in E. rewrite P in E. destruct (left_frontier (mp_path pf) 0 pid msg) as [y F]. rewrite F in E.
  apply left_loop in E; [|rewrite rev_length; reflexivity]. cbn [w_moved] in *. rewrite E. lia.
Qed.

(** ** Nodes shifted for a proof of any position *)
Fixpoint uneven (xs : list tree_node) : Prop :=
  match xs with
  | ConcealedNode a _ :: r =>
      match r with ConcealedNode b _ :: _ => a <> b | [] => True | _ => False end /\ uneven r
  | [] => True
  | _ => False
  end.
Definition below (e : nat) (n : tree_node) : Prop := match n with ConcealedNode d _ => e < d | _ => False end.

Lemma uneven_cons e h xs : Forall (below e) xs -> uneven xs -> uneven (ConcealedNode e h :: xs).
Proof.
  intros F U. cbn [uneven]. split; [|exact U]. destruct xs as [|[b y|p m] xs]; [exact I| |destruct U].
  inversion_clear F. cbn in *. lia.
Qed.
Lemma uneven_snoc e h : forall xs, Forall (below e) xs -> uneven xs -> uneven (xs ++ [ConcealedNode e h]).
Proof.
  induction xs as [|[a x|p m] xs IH]; intros F U; [cbn; auto| |destruct U].
  inversion_clear F. destruct U as [U1 U2]. cbn [app uneven]. split; [|apply IH; assumption].
  destruct xs as [|[b y|p m] xs]; cbn [app]; [cbn in *; lia|exact U1|exact U1].
Qed.

Fixpoint after (t : ptree) : nat :=
  match t with
  | PBr l r => if is_conc l then after r else S (after l)
  | _ => 0
  end.
Fixpoint size (t : ptree) : nat := match t with PBr l r => size l + size r | _ => 1 end.
Fixpoint shifts (t : ptree) : nat :=
  match t with
  | PBr l r => if is_conc l then shifts r else shifts l + (size l - 1)
  | _ => 0
  end.
Lemma size_flatten t : forall d, length (flatten d t) = size t.
Proof. induction t as [h|p m|l IHl r IHr]; intros d; cbn; [reflexivity|reflexivity|]. rewrite app_length, IHl, IHr. reflexivity. Qed.
Lemma size_pos t : 1 <= size t.
Proof. induction t; cbn; lia. Qed.
Lemma conc_of t : is_conc t = true -> exists h, t = PConc h.
Proof. destruct t as [h| |]; intros E; try discriminate. exists h. reflexivity. Qed.
Lemma below_flatten t : forall d, combed t -> Forall (fun n => match n with ConcealedNode a _ => d <= a | _ => False end) (flatten d t).
Proof.
  induction t as [h|p m|l IHl r IHr]; intros d C; [repeat constructor|destruct C|]. cbn [flatten].
  assert (B : combed l /\ combed r).
  { destruct C as [[A B]|[A B]]; [apply conc_of in A as [h ->]|apply conc_of in B as [h ->]]; split; try exact I; assumption. }
  apply Forall_app. split; [eapply Forall_impl; [|apply IHl, B]|eapply Forall_impl; [|apply IHr, B]];
    intros [a x|p m] X; cbn in *; try lia; exact X.
Qed.
Lemma below_branch l r d : combed (PBr l r) -> Forall (below d) (flatten d (PBr l r)).
Proof.
  intros C. cbn [flatten].
  assert (B : combed l /\ combed r).
  { destruct C as [[A B]|[A B]]; [apply conc_of in A as [h ->]|apply conc_of in B as [h ->]]; split; try exact I; assumption. }
  apply Forall_app. split; [eapply Forall_impl; [|apply (below_flatten l), B]|eapply Forall_impl; [|apply (below_flatten r), B]];
    intros [a x|p m] X; cbn in *; try lia; exact X.
Qed.

Lemma comb_split t : forall d, combed t -> is_conc t = false -> exists pre a x y post,
  flatten d t = pre ++ ConcealedNode a x :: ConcealedNode a y :: post /\
  uneven (pre ++ [ConcealedNode a x]) /\ uneven (ConcealedNode a y :: post) /\ length post = after t.
Proof.
  induction t as [h|p m|l IHl r IHr]; intros d C N; [discriminate|destruct C|].
  destruct C as [[A B]|[A B]].
  - apply conc_of in A as [h ->]. destruct (is_conc r) eqn:R.
    + apply conc_of in R as [g ->]. exists [], (S d), h, g, []. cbn. auto.
    + destruct (IHr (S d) B eq_refl) as [pre [a [x [y [post [E [U1 [U2 L]]]]]]]].
      exists (ConcealedNode (S d) h :: pre), a, x, y, post. cbn [flatten app after is_conc]. rewrite E.
      split; [reflexivity|]. split; [|split; [exact U2|exact L]].
      apply uneven_cons; [|exact U1]. destruct r as [|p m|r1 r2]; [discriminate|destruct B|].
      pose proof (below_branch r1 r2 (S d) B) as F. rewrite E in F. apply Forall_app in F as [F1 F2].
      apply Forall_app. split; [exact F1|]. inversion_clear F2. repeat constructor; assumption.
  - apply conc_of in B as [g ->]. destruct (is_conc l) eqn:R.
    + apply conc_of in R as [h ->]. exists [], (S d), h, g, []. cbn. auto.
    + destruct (IHl (S d) A eq_refl) as [pre [a [x [y [post [E [U1 [U2 L]]]]]]]].
      exists pre, a, x, y, (post ++ [ConcealedNode (S d) g]). cbn [flatten after]. rewrite E, R, <- app_assoc.
      split; [reflexivity|]. split; [exact U1|]. split; [|rewrite app_length, L; cbn; lia].
      destruct l as [|p m|l1 l2]; [discriminate|destruct A|].
      pose proof (below_branch l1 l2 (S d) A) as F. rewrite E in F. apply Forall_app in F as [F1 F2].
      inversion_clear F2. apply (uneven_snoc (S d) g (ConcealedNode a y :: post)); assumption.
Qed.

Section Shift.
Context {H : Hasher}.
Lemma uneven_pass md D : forall xs o c L h M r o' c' L' h' M', uneven xs ->
  counted_pass md D xs o c L h M = Ret (r, o', c', (L', h', M')) -> c' = c /\ M' = M.
Proof.
  induction xs as [|[a x|p m] xs IH]; intros o c L h M r o' c' L' h' M' U; [| |destruct U].
  - cbn [counted_pass]. intros [= _ _ <- _ _ <-]. auto.
  - destruct U as [U1 U2]. destruct xs as [|[b y|p m] xs]; [| |destruct U1].
    + cbn [counted_pass]. intros E. apply bind_inv in E as [s [_ E]]. apply bind_inv in E as [o1 [_ E]].
      injection E as _ _ <- _ _ <-. auto.
    + cbn [counted_pass]. replace (a =? b) with false by (symmetry; apply Nat.eqb_neq; exact U1).
      intros E. apply bind_inv in E as [s [_ E]]. apply bind_inv in E as [o1 [_ E]].
      apply bind_inv in E as [[[[r1 o2] c2] [[L2 h2] M2]] [E1 E]]. injection E as _ _ <- _ _ <-.
      apply (IH _ _ _ _ _ _ _ _ _ _ _ U2) in E1. exact E1.
Qed.
Lemma pair_pass md D a x y post : uneven (ConcealedNode a y :: post) -> forall pre o c L h M r o' c' L' h' M',
  uneven (pre ++ [ConcealedNode a x]) ->
  counted_pass md D (pre ++ ConcealedNode a x :: ConcealedNode a y :: post) o c L h M = Ret (r, o', c', (L', h', M')) ->
  c' <> c -> M' = (M + N.of_nat (length post))%N.
Proof.
  intros U. induction pre as [|[b z|p m] pre IH]; intros o c L h M r o' c' L' h' M' V; [| |destruct V].
  - cbn [app counted_pass]. rewrite Nat.eqb_refl. intros E NC.
    apply bind_inv in E as [dd [_ E]]. apply bind_inv in E as [pow [_ E]]. apply bind_inv in E as [rem [_ E]].
    destruct (negb (rem =? 0)%N).
    + apply bind_inv in E as [s [_ E]]. apply bind_inv in E as [o1 [_ E]].
      apply bind_inv in E as [[[[r1 o2] c2] [[L2 h2] M2]] [E1 E]]. injection E as _ _ <- _ _ <-.
      change (counted_pass md D (ConcealedNode a y :: post) o1 c (L + 1) h M = Ret (r1, o2, c2, (L2, h2, M2))) in E1.
      apply uneven_pass in E1 as [E1 _]; [|exact U]. destruct (NC E1).
    + apply bind_inv in E as [o1 [_ E]].
      apply bind_inv in E as [[[[r1 o2] c2] [[L2 h2] M2]] [E1 E]]. injection E as _ _ <- _ _ <-.
      apply uneven_pass in E1 as [_ E1]; [exact E1|exact (proj2 U)].
  - destruct V as [V1 V2]. cbn [app]. intros E NC.
    assert (X : exists b' z' tl, pre ++ ConcealedNode a x :: ConcealedNode a y :: post = ConcealedNode b' z' :: tl /\ b <> b').
    { destruct pre as [|[b' z'|p m] pre]; [exists a, x, (ConcealedNode a y :: post)|exists b', z'; eexists|destruct V1];
        (split; [reflexivity|exact V1]). }
    destruct X as [b' [z' [tl [X NB]]]]. cbn [counted_pass] in E. rewrite X in E.
    replace (b =? b') with false in E by (symmetry; apply Nat.eqb_neq; exact NB).
    apply bind_inv in E as [s [_ E]]. apply bind_inv in E as [o1 [_ E]].
    apply bind_inv in E as [[[[r1 o2] c2] [[L2 h2] M2]] [E1 E]]. injection E as _ _ <- _ _ <-.
    rewrite <- X in E1. eapply IH; [exact V2|exact E1|exact NC].
Qed.

Lemma size_step W t : forall d, combed t -> is_conc t = false -> size t = S (size (pstep W d t)).
Proof.
  induction t as [h|p m|l IHl r IHr]; intros d C N; [discriminate|destruct C|].
  destruct (is_conc l && is_conc r) eqn:E.
  - destruct l, r; try discriminate. reflexivity.
  - rewrite pstep_br by exact E. cbn [size]. destruct C as [[A B]|[A B]].
    + rewrite A in E. rewrite (IHr (S d) B E). apply conc_of in A as [h ->]. cbn. lia.
    + rewrite B, andb_true_r in E. rewrite (IHl (S d) A E). apply conc_of in B as [h ->]. cbn. lia.
Qed.
Lemma shifts_step W t : forall d, combed t -> is_conc t = false -> shifts t = after t + shifts (pstep W d t).
Proof.
  induction t as [h|p m|l IHl r IHr]; intros d C N; [discriminate|destruct C|].
  destruct (is_conc l && is_conc r) eqn:E.
  - destruct l, r; try discriminate. reflexivity.
  - rewrite pstep_br by exact E. cbn [shifts after]. destruct C as [[A B]|[A B]].
    + rewrite A in E. rewrite A. pose proof (IHr (S d) B E) as Q. apply conc_of in A as [h ->]. cbn [pstep is_conc]. exact Q.
    + rewrite B, andb_true_r in E. rewrite E. rewrite (IHl (S d) A E). pose proof (size_step W l (S d) A E) as Z.
      pose proof (size_pos (pstep W (S d) l)).
      destruct (is_conc (pstep W (S d) l)) eqn:P.
      * apply conc_of in P as [h P]. rewrite P in *. cbn [shifts size] in *. apply conc_of in B as [g ->]. cbn. lia.
      * lia.
Qed.

Lemma comb_moves md D : D <= 31 -> forall n t fuel c w r c' w', pwf_loose D 0 t -> combed t -> length (flatten 0 t) = S n ->
  counted_loop fuel md D (flatten 0 t) c w = Ret (r, c', w') -> (w_moved w' = w_moved w + N.of_nat (shifts t))%N.
Proof.
  intros HD. induction n as [|n IH]; intros t fuel c w r c' w' Hw C L E; (destruct fuel as [|fuel]; [discriminate|]); cbn [counted_loop] in E;
    apply bind_inv in E as [u [_ E]]; apply bind_inv in E as [[[[r1 o1] c1] [[L1 h1] M1]] [P E]].
  - rewrite size_flatten in L.
    assert (T : exists h, t = PConc h).
    { destruct t as [h|p m|l r0]; [exists h; reflexivity|destruct C|]. cbn [size] in L. pose proof (size_pos l). pose proof (size_pos r0). lia. }
    destruct T as [h ->]. cbn [flatten] in P. apply uneven_pass in P as [-> ->]; [|cbn; auto].
    rewrite N.eqb_refl in E. injection E as _ _ <-. cbn [w_moved shifts]. lia.
  - assert (NC : is_conc t = false) by (destruct t; [discriminate|reflexivity|reflexivity]).
    destruct (comb_split t 0 C NC) as [pre [a [x [y [post [F [U1 [U2 LP]]]]]]]].
    pose proof (pass_ok_all md D _ (flatten 0 t) 0 c (w_looks w) (w_hashed w) (w_moved w) (le_n _)) as Q. unfold pass_ok in Q.
    rewrite pass_root, (combed_merges t C), NC, P in Q by assumption. destruct Q as [Q _]. injection Q as Q1 Q2 Q3. subst r1 o1 c1.
    assert (M : M1 = (w_moved w + N.of_nat (after t))%N).
    { rewrite <- LP. rewrite F in P. eapply pair_pass; [exact U2|exact U1|exact P|lia]. }
    replace (c + 1 =? c)%N with false in E by (symmetry; apply N.eqb_neq; lia).
    apply bind_inv in E as [v [_ E]].
    apply IH in E; [|apply pstep_pwf_loose; exact Hw|apply combed_step; exact C|].
    + rewrite E. cbn [w_moved]. rewrite M, (shifts_step (width_of D) t 0 C NC). lia.
    + rewrite size_flatten in *. rewrite (size_step (width_of D) t 0 C NC) in L. lia.
Qed.

Lemma size_path path : forall pos p m, size (path_tree path pos p m) = S (length path).
Proof. intros pos p m. rewrite <- (size_flatten _ 0), path_length. reflexivity. Qed.
Lemma size_pkeep f t : size (pkeep f t) = size t.
Proof. induction t as [h|p m|l IHl r IHr]; cbn; [reflexivity|destruct (f p); reflexivity|]. lia. Qed.

Definition zeros_sum (d : nat) (pos : N) : N :=
  fold_right N.add 0%N (filter (fun j => negb (N.testbit pos j)) (N_range (N.of_nat d))).
Lemma zeros_S d pos : zeros_sum (S d) pos = (zeros_sum d pos + (if N.testbit pos (N.of_nat d) then 0 else N.of_nat d))%N.
Proof.
  unfold zeros_sum, N_range. rewrite !Nat2N.id, seq_S, map_app, filter_app. cbn [map filter Nat.add].
  assert (A : forall l x, fold_right N.add x l = (fold_right N.add 0 l + x)%N).
  { induction l as [|y l IHl]; intros x; cbn; [lia|]. rewrite IHl. lia. }
  rewrite fold_right_app, A. destruct (N.testbit pos (N.of_nat d)); cbn; lia.
Qed.
Lemma zeros_high d pos : zeros_sum d (pos + 2 ^ N.of_nat d) = zeros_sum d pos.
Proof.
  unfold zeros_sum. f_equal. apply filter_ext_in. intros j I. f_equal.
  unfold N_range in I. apply in_map_iff in I as [i [<- I]]. apply in_seq in I. rewrite Nat2N.id in I.
  rewrite <- (N.mod_pow2_bits_low (pos + 2 ^ N.of_nat d) (N.of_nat d)) by lia.
  rewrite <- (N.mod_pow2_bits_low pos (N.of_nat d)) by lia.
  f_equal. rewrite <- (N.mul_1_l (2 ^ N.of_nat d)) at 1. rewrite N.mod_add by (apply N.pow_nonzero; lia). reflexivity.
Qed.
Lemma shifts_path path : forall pos p m, (pos < 2 ^ N.of_nat (length path))%N ->
  N.of_nat (shifts (pkeep (mem []) (path_tree path pos p m))) = zeros_sum (length path) pos.
Proof.
  induction path as [|h path IH]; intros pos p m B; [reflexivity|]. cbn [path_tree length]. rewrite zeros_S.
  cbn [length] in B. rewrite Nat2N.inj_succ, N.pow_succ_r' in B.
  destruct (2 ^ N.of_nat (length path) <=? pos)%N eqn:E.
  - apply N.leb_le in E. cbn [pkeep shifts is_conc]. rewrite IH by lia.
    rewrite <- (zeros_high (length path) (pos - _)). rewrite N.sub_add by exact E.
    replace (N.testbit pos (N.of_nat (length path))) with true; [lia|]. symmetry. apply N.testbit_true.
    replace (pos / 2 ^ N.of_nat (length path))%N with 1%N; [reflexivity|].
    apply N.div_unique with (r := (pos - 2 ^ N.of_nat (length path))%N); lia.
  - apply N.leb_gt in E. cbn [pkeep shifts].
    replace (N.testbit pos (N.of_nat (length path))) with false.
    2: { symmetry. apply N.testbit_false. rewrite N.div_small by exact E. reflexivity. }
    rewrite <- (IH pos p m) by exact E. pose proof (size_pkeep (mem []) (path_tree path pos p m)) as Z. rewrite size_path in Z.
    destruct (is_conc (pkeep (mem []) (path_tree path pos p m))) eqn:K.
    + apply conc_of in K as [g K]. rewrite K in *. cbn [size shifts] in *. lia.
    + rewrite Z. lia.
Qed.
End Shift.

Lemma c104_moves : forall (H : Hasher) md pf pid msg c w
  (run : counted_convolve md pf pid msg = Ret (Ok (c, w))),
  w_moved w = fold_right N.add 0%N (filter (fun j => negb (N.testbit (mp_pos pf) j)) (map N.of_nat (seq 0 (length (mp_path pf))))).
Proof.
  intros H md pf pid msg c w R. destruct (convolve_runs _ _ _ _ _ _ R) as [L [P [fuel [x [n [w' [Hf [E ->]]]]]]]].
  apply (comb_moves md _ L (length (mp_path pf))) in E.
  - cbn [w_moved] in *. rewrite E. unfold proof_tree. rewrite shifts_path.
    + unfold zeros_sum, N_range. rewrite Nat2N.id. lia.
    + rewrite <- P. exact (proj2 (protocol_id_pos_spec pid (mp_cofactor pf) _ L)).
  - apply pkeep_pwf_loose, pwf_loose_of, path_tree_pwf; lia.
  - apply combed_path.
  - rewrite pkeep_length. apply path_length.
Qed.
