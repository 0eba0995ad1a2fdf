(** C88: the loops as written. *)
From Verif Require Import Base BaseFacts OrdMap Merkle MpcAtoms MpcTree MpcBlock Loops.
Local Open Scope nat_scope.

(** ** Buoys *)
Lemma lit_push_ok : forall fuel x d, buoy_size x <= fuel -> lit_push fuel x d = Ret (buoy_push x d).
Proof.
  induction fuel as [|fuel IH]; intros [b [s|]] d L; cbn [buoy_size] in L; try lia.
  - cbn [lit_push buoy_push]. destruct (d =? 0); [reflexivity|]. rewrite IH by lia. cbn [bind].
    destruct (buoy_push s d) as [[] s'] eqn:E; [|reflexivity].
    rewrite IH by (cbn; destruct s as [? [?|]]; cbn in L; lia). cbn [buoy_push]. unfold buoy_push_flat.
    destruct (buoy_level s' =? 0); reflexivity.
  - cbn [lit_push buoy_push]. destruct (d =? 0) eqn:D0; [reflexivity|]. unfold buoy_push_flat. rewrite D0.
    destruct (d =? b) eqn:DB; [|reflexivity]. apply Nat.eqb_eq in DB. apply Nat.eqb_neq in D0. subst b.
    unfold u5_sub. replace (1 <=? d) with true by (symmetry; apply Nat.leb_le; lia). reflexivity.
Qed.
Lemma c88_buoy : forall x d, lit_push (buoy_size x) x d = Ret (buoy_push x d).
Proof. intros x d. apply lit_push_ok. lia. Qed.

(** ** Blocks from proofs *)
Lemma lit_with_ok path : forall i pos w dir rv, lit_with path i pos w dir rv =
  (' (d, r) <- with_loop path i pos w ;; Ret (dir ++ d, rv ++ r)).
Proof.
  induction path as [|h path IH]; intros i pos w dir rv; cbn [lit_with with_loop bind].
  - rewrite !app_nil_r. reflexivity.
  - destruct (u5_with i) as [d|]; [|reflexivity]. cbn [bind]. destruct (u5_add d 1) as [d1|]; [|reflexivity]. cbn [bind].
    destruct (w / 2 <=? pos)%N; rewrite IH; destruct (with_loop path _ _ _) as [[a b]|]; cbn [bind]; try reflexivity;
      rewrite <- app_assoc; reflexivity.
Qed.
Lemma c88_with : forall path pos w, lit_with path 0 pos w [] [] = with_loop path 0 pos w.
Proof. intros. rewrite lit_with_ok. destruct (with_loop _ _ _ _) as [[a b]|]; reflexivity. Qed.

(** ** The search for a tree *)
Lemma lit_all_ok msgs c d : forall m, match place msgs c d m with
  | Some m' => lit_all msgs c d m = (true, m') | None => fst (lit_all msgs c d m) = false end.
Proof.
  induction msgs as [|[p q] msgs IH]; intros m; cbn [place lit_all]; [reflexivity|].
  destruct (om_insert N.ltb (protocol_id_pos p c d) (p, q) m) as [[o|] m'] eqn:E; [reflexivity|]. apply IH.
Qed.
Lemma lit_attempts_ok msgs d n : forall c m,
  match try_cofactors (map N.of_nat (seq c n)) msgs d with
  | Some (c', m') => lit_attempts n (N.of_nat c) msgs d m = (Some c', m')
  | None => fst (lit_attempts n (N.of_nat c) msgs d m) = None
  end.
Proof.
  induction n as [|n IH]; intros c m; cbn [seq map try_cofactors lit_attempts]; [reflexivity|].
  pose proof (lit_all_ok msgs (N.of_nat c) d []) as A. destruct (place msgs (N.of_nat c) d []) as [m'|].
  - rewrite A. reflexivity.
  - destruct (lit_all msgs (N.of_nat c) d []) as [fits m'] eqn:E. cbn in A. subst fits.
    replace (N.of_nat c + 1)%N with (N.of_nat (S c)) by lia. apply IH.
Qed.
Lemma c88_search : forall fuel msgs map d w, lit_search fuel msgs map d w = commit_loop fuel msgs d w.
Proof.
  induction fuel as [|fuel IH]; intros msgs m d w; cbn [lit_search commit_loop]; [reflexivity|].
  destruct (N.of_nat (length msgs) <=? width_of d)%N.
  - rewrite N.mod_small by (change (2 ^ 16)%N with 65536%N; lia). unfold N_range, cofactor_attempts.
    replace (N.to_nat (N.min w 500 + 1)) with (S (N.to_nat (N.min w 500))) by lia.
    pose proof (lit_attempts_ok msgs d (S (N.to_nat (N.min w 500))) 0 m) as A.
    change (N.of_nat 0) with 0%N in A.
    destruct (try_cofactors _ msgs d) as [[c' m']|].
    + rewrite A. reflexivity.
    + destruct (lit_attempts _ 0 msgs d m) as [f m']. cbn [fst] in A. subst f.
      destruct (u5_checked_add d 1); [apply IH|reflexivity].
  - destruct (u5_checked_add d 1); [apply IH|reflexivity].
Qed.

(** ** Vectors *)
Lemma index_app {A} (pre : list A) x xs : vec_index (pre ++ x :: xs) (length pre) = Ret x.
Proof. unfold vec_index. rewrite nth_error_app2, Nat.sub_diag by lia. reflexivity. Qed.
Lemma set_app {A} (pre : list A) x xs y : vec_set (pre ++ x :: xs) (length pre) y = Ret (pre ++ y :: xs).
Proof.
  unfold vec_set. rewrite app_length. cbn [length]. replace (_ <? _) with true by (symmetry; apply Nat.ltb_lt; lia).
  rewrite firstn_app, Nat.sub_diag, firstn_all. cbn [firstn]. rewrite app_nil_r.
  rewrite skipn_app, skipn_all2 by lia. replace (S (length pre) - length pre) with 1 by lia. reflexivity.
Qed.
Lemma remove_app {A} (pre : list A) x y xs : vec_remove (pre ++ x :: y :: xs) (length pre + 1) = Ret (pre ++ x :: xs).
Proof.
  unfold vec_remove. rewrite app_length. cbn [length].
  replace (_ <=? 1) with false by (symmetry; apply Nat.leb_gt; lia).
  replace (_ <=? length pre + 1) with false by (symmetry; apply Nat.leb_gt; lia).
  change (x :: y :: xs) with ([x] ++ y :: xs). change (x :: xs) with ([x] ++ xs). rewrite !app_assoc.
  replace (length pre + 1) with (length (pre ++ [x])) by (rewrite app_length; reflexivity).
  rewrite firstn_app, Nat.sub_diag, firstn_all. cbn [firstn]. rewrite app_nil_r.
  rewrite skipn_app, skipn_all2 by lia. replace (S (length (pre ++ [x])) - length (pre ++ [x])) with 1 by lia. reflexivity.
Qed.
Lemma get_app {A} (pre : list A) x xs : nth_error (pre ++ x :: xs) (length pre + 1) = nth_error xs 0.
Proof. rewrite nth_error_app2 by lia. replace (length pre + 1 - length pre) with 1 by lia. reflexivity. Qed.
Lemma snoc {A} (pre : list A) x xs : pre ++ x :: xs = (pre ++ [x]) ++ xs.
Proof. rewrite <- app_assoc. reflexivity. Qed.
Lemma snoc_length {A} (pre : list A) x : length (pre ++ [x]) = length pre + 1.
Proof. apply app_length. Qed.

Section WithHash.
Context {H : Hasher}.

(** ** Concealing *)
Lemma lit_leaves_ok D protocols xs : forall fuel pre nf c, length xs < fuel ->
  lit_leaves fuel D protocols (pre ++ xs) (length pre) nf c =
  let '(r, nf', c') := conceal_leaves D protocols xs nf c in Ret (pre ++ r, nf', c').
Proof.
  induction xs as [|x xs IH]; intros [|fuel] pre nf c L; cbn [length] in L; try lia; cbn [lit_leaves conceal_leaves].
  - rewrite app_nil_r, Nat.ltb_irrefl. reflexivity.
  - replace (length pre <? length (pre ++ x :: xs)) with true
      by (symmetry; apply Nat.ltb_lt; rewrite app_length; cbn [length]; lia).
    rewrite index_app. cbn [bind].
    assert (ST : forall y nf c, lit_leaves fuel D protocols (pre ++ y :: xs) (S (length pre)) nf c =
      let '(r, nf', c') := conceal_leaves D protocols xs nf c in Ret (pre ++ y :: r, nf', c')).
    { intros y nf' c'. rewrite snoc. replace (S (length pre)) with (length (pre ++ [y])) by (rewrite snoc_length; lia).
      rewrite IH by lia. destruct (conceal_leaves D protocols xs nf' c') as [[r n2] c2]. rewrite <- app_assoc. reflexivity. }
    destruct x as [d h|p m].
    + rewrite ST. destruct (conceal_leaves D protocols xs nf c) as [[r n2] c2]. reflexivity.
    + destruct (existsb (b32_eqb p) protocols).
      * rewrite ST. destruct (conceal_leaves D protocols xs _ c) as [[r n2] c2]. reflexivity.
      * rewrite set_app. cbn [bind]. rewrite ST. destruct (conceal_leaves D protocols xs nf _) as [[r n2] c2]. reflexivity.
Qed.

Definition framed_result (pre : list tree_node) (o : outcome (list tree_node * N * N)) : outcome (list tree_node * N * N) :=
  ' (r, o, c) <- o ;; Ret (pre ++ r, o, c).
Lemma lit_pass_ok md D : forall fuel xs pre o c, length xs < fuel ->
  lit_pass fuel md D (pre ++ xs) o (length pre) (length (pre ++ xs)) c = framed_result pre (conceal_pass md D xs o c).
Proof.
  induction fuel as [|fuel IH]; intros xs pre o c L; [lia|].
  destruct xs as [|x xs]; cbn [lit_pass].
  - rewrite app_nil_r, Nat.ltb_irrefl. cbn. rewrite app_nil_r. reflexivity.
  - replace (length pre <? length (pre ++ x :: xs)) with true
      by (symmetry; apply Nat.ltb_lt; rewrite app_length; cbn [length]; lia).
    rewrite index_app, get_app. cbn [bind length] in *.
    assert (S1 : forall ys y o c, length ys <= length xs ->
      lit_pass fuel md D (pre ++ y :: ys) o (length pre + 1) (length (pre ++ y :: ys)) c =
      framed_result (pre ++ [y]) (conceal_pass md D ys o c)).
    { intros ys y o' c' LY. rewrite snoc, <- (snoc_length pre y). apply IH. lia. }
    assert (S2 : forall y z ys o c, length ys < length xs ->
      lit_pass fuel md D (pre ++ y :: z :: ys) o (length pre + 1 + 1) (length (pre ++ y :: z :: ys)) c =
      framed_result (pre ++ [y; z]) (conceal_pass md D ys o c)).
    { intros y z ys o' c' LY. rewrite (snoc pre y), (snoc (pre ++ [y]) z), <- (snoc_length pre y), <- (snoc_length (pre ++ [y]) z).
      rewrite <- (app_assoc pre [y] [z]). change ([y] ++ [z]) with [y; z]. apply IH. lia. }
    assert (FR : forall y o c ys, framed_result (pre ++ [y]) (conceal_pass md D ys o c) =
      framed_result pre (' (r, o, c) <- conceal_pass md D ys o c ;; Ret (y :: r, o, c))).
    { intros y o' c' ys. unfold framed_result. destruct (conceal_pass md D ys o' c') as [[[r o2] c2]|]; cbn [bind]; [|reflexivity].
      rewrite <- app_assoc. reflexivity. }
    assert (FR2 : forall y z o c ys, framed_result (pre ++ [y; z]) (conceal_pass md D ys o c) =
      framed_result pre (' (r, o, c) <- conceal_pass md D ys o c ;; Ret (y :: z :: r, o, c))).
    { intros y z o' c' ys. unfold framed_result. destruct (conceal_pass md D ys o' c') as [[[r o2] c2]|]; cbn [bind]; [|reflexivity].
      rewrite <- app_assoc. reflexivity. }
    destruct x as [d1 h1|p1 m1].
    + destruct xs as [|[d2 h2|p2 m2] xs]; cbn [nth_error conceal_pass].
      * change (lit_span md D d1) with (node_span md D d1). destruct (node_span md D d1) as [s|]; [|reflexivity]. cbn [bind].
        destruct (u32_add md o s) as [o'|]; [|reflexivity]. cbn [bind]. rewrite S1 by (cbn; lia). rewrite FR. reflexivity.
      * destruct (d1 =? d2).
        -- destruct (u5_sub d1 1) as [d|]; [|reflexivity]. cbn [bind]. unfold node_span at 1.
           destruct (u32_sub md (N.of_nat D) (N.of_nat d)) as [h|]; [|reflexivity]. cbn [bind].
           destruct (u32_pow2 md h) as [pow|]; [|reflexivity]. cbn [bind].
           destruct (u32_rem o pow) as [rem|]; [|reflexivity]. cbn [bind].
           destruct (negb (rem =? 0)%N).
           ++ change (lit_span md D d1) with (node_span md D d1). destruct (node_span md D d1) as [s|]; [|reflexivity]. cbn [bind].
              destruct (u32_add md o s) as [o'|]; [|reflexivity]. cbn [bind]. rewrite S1 by (cbn; lia). rewrite FR. reflexivity.
           ++ rewrite set_app. cbn [bind]. rewrite remove_app. cbn [bind].
              destruct (u32_add md o pow) as [o'|]; [|reflexivity]. cbn [bind].
              replace (length (pre ++ ConcealedNode d1 h1 :: ConcealedNode d2 h2 :: xs) - 1)
                with (length (pre ++ tn_with h1 h2 d (width_of D) :: xs)) by (rewrite !app_length; cbn [length]; lia).
              rewrite S1 by (cbn; lia). rewrite FR. reflexivity.
        -- change (lit_span md D d1) with (node_span md D d1). destruct (node_span md D d1) as [s|]; [|reflexivity]. cbn [bind].
           destruct (u32_add md o s) as [o'|]; [|reflexivity]. cbn [bind]. rewrite S1 by (cbn; lia). rewrite FR. reflexivity.
      * change (lit_span md D d1) with (node_span md D d1). destruct (node_span md D d1) as [s|]; [|reflexivity]. cbn [bind].
        destruct (u32_add md o s) as [o'|]; [|reflexivity]. cbn [bind].
        destruct (u32_add md o' 1) as [o''|]; [|reflexivity]. cbn [bind]. rewrite S2 by (cbn; lia). rewrite FR2. reflexivity.
    + destruct xs as [|[d2 h2|p2 m2] xs]; cbn [nth_error conceal_pass].
      * destruct (u32_add md o 1) as [o'|]; [|reflexivity]. cbn [bind]. rewrite S1 by (cbn; lia). rewrite FR. reflexivity.
      * destruct (u32_add md o 1) as [o'|]; [|reflexivity]. cbn [bind]. rewrite S1 by (cbn; lia). rewrite FR. reflexivity.
      * destruct (u32_add md o 2) as [o'|]; [|reflexivity]. cbn [bind]. rewrite S2 by (cbn; lia). rewrite FR2. reflexivity.
Qed.
Lemma lit_loop_ok md D : forall fuel cs c, lit_loop fuel md D cs c = conceal_loop fuel md D cs c.
Proof.
  induction fuel as [|fuel IH]; intros cs c; cbn [lit_loop conceal_loop]; [reflexivity|].
  replace (negb (length cs =? 0)) with (negb match cs with [] => true | _ => false end) by (destruct cs; reflexivity).
  destruct (debug_assert md _); [|reflexivity]. cbn [bind].
  pose proof (lit_pass_ok md D (S (length cs)) cs [] 0%N c ltac:(lia)) as P. cbn [app length] in P. rewrite P. unfold framed_result.
  destruct (conceal_pass md D cs 0 c) as [[[r o] c']|]; [|reflexivity]. cbn [bind app].
  destruct (c' =? c)%N; [reflexivity|]. destruct (debug_assert md _); [|reflexivity]. cbn [bind]. apply IH.
Qed.
Lemma lit_conceal_eq : forall md b protocols, lit_conceal_except md b protocols = conceal_except md b protocols.
Proof.
  intros md b protocols. unfold lit_conceal_except, conceal_except.
  pose proof (lit_leaves_ok (mb_depth b) protocols (mb_cross_section b) (S (length (mb_cross_section b))) []
    (os_of_list b32_ltb protocols) 0%N ltac:(lia)) as P.
  cbn [app length] in P. rewrite P. destruct (conceal_leaves _ _ _ _ _) as [[xs nf] c]. cbn [bind].
  destruct nf as [|p nf]; cbn [nth_error]; [|reflexivity]. rewrite lit_loop_ok. reflexivity.
Qed.

(** ** Merging *)
Definition opt_cons {A} (o : option A) (l : list A) : list A := match o with Some a => a :: l | None => [] end.
Lemma lit_take_ok D limit iter : forall stop bu section,
  lit_take_while D limit stop bu iter section None =
  let '(t, rest) := merge_take D limit stop bu iter in Ret (section ++ t, fst (lit_next rest), snd (lit_next rest)).
Proof.
  induction iter as [|n iter IH]; intros stop bu section; cbn [lit_take_while merge_take].
  - rewrite app_nil_r. reflexivity.
  - destruct stop; [cbn; rewrite app_nil_r; reflexivity|]. rewrite c88_buoy. cbn [bind].
    destruct (buoy_push bu (tn_depth_or n D)) as [f bu']. cbn [snd]. rewrite IH.
    destruct (merge_take D limit (buoy_level bu' <=? limit) bu' iter) as [t r]. rewrite <- app_assoc. reflexivity.
Qed.
Lemma next_cons {A} (l : list A) : opt_cons (fst (lit_next l)) (snd (lit_next l)) = l.
Proof. destruct l; reflexivity. Qed.
Lemma next_none {A} (l : list A) : fst (lit_next l) = None -> snd (lit_next l) = [].
Proof. destruct l; [reflexivity|discriminate]. Qed.
Lemma lit_merge_ok D : forall fuel section la lb a b, (la = None -> a = []) -> (lb = None -> b = []) ->
  lit_merge fuel D section la lb a b = (r <- merge_loop fuel D (opt_cons la a) (opt_cons lb b) ;; Ret (section ++ r)).
Proof.
  induction fuel as [|fuel IH]; intros section la lb a b EA EB; cbn [lit_merge merge_loop]; [reflexivity|].
  destruct la as [n1|]; [|rewrite (EA eq_refl); destruct lb; cbn [opt_cons tl bind app]; [|rewrite (EB eq_refl)]; reflexivity].
  destruct lb as [n2|]; [|rewrite (EB eq_refl); cbn [opt_cons tl bind app]; reflexivity].
  cbn [opt_cons].
  assert (NX : forall sec l1 l2, lit_merge fuel D sec (fst (lit_next l1)) (fst (lit_next l2)) (snd (lit_next l1)) (snd (lit_next l2)) =
    (r <- merge_loop fuel D l1 l2 ;; Ret (sec ++ r))).
  { intros sec l1 l2. rewrite IH by apply next_none. rewrite !next_cons. reflexivity. }
  assert (BB : forall (o : outcome (list tree_node)) sec n, (r <- o ;; Ret ((sec ++ [n]) ++ r)) =
    (r <- (r <- o ;; Ret (n :: r)) ;; Ret (sec ++ r))).
  { intros [r|] sec n; cbn [bind]; [rewrite <- app_assoc|]; reflexivity. }
  set (d1 := tn_depth_or n1 D). set (d2 := tn_depth_or n2 D).
  destruct (Nat.compare_spec d1 d2) as [E|E|E].
  - replace (d1 =? d2) with true by (symmetry; apply Nat.eqb_eq; exact E).
    rewrite (surjective_pairing (lit_next a)), (surjective_pairing (lit_next b)). cbn iota.
    destruct (tree_node_eqb n1 n2); [rewrite NX; apply BB|].
    destruct (tn_is_leaf n1), (tn_is_leaf n2); [reflexivity|rewrite NX; apply BB|rewrite NX; apply BB|apply NX].
  - replace (d1 =? d2) with false by (symmetry; apply Nat.eqb_neq; lia).
    replace (d1 <? d2) with true by (symmetry; apply Nat.ltb_lt; lia).
    rewrite lit_take_ok. unfold buoy_new. destruct (merge_take D d1 false (Buoy d2 None) b) as [t rest]. cbn [bind].
    rewrite (surjective_pairing (lit_next a)). cbn iota. rewrite NX.
    destruct (merge_loop fuel D a rest); cbn [bind]; [|reflexivity]. rewrite <- !app_assoc. reflexivity.
  - replace (d1 =? d2) with false by (symmetry; apply Nat.eqb_neq; lia).
    replace (d1 <? d2) with false by (symmetry; apply Nat.ltb_ge; lia).
    rewrite lit_take_ok. unfold buoy_new. destruct (merge_take D d2 false (Buoy d1 None) a) as [t rest]. cbn [bind].
    rewrite (surjective_pairing (lit_next b)). cbn iota. rewrite NX.
    destruct (merge_loop fuel D rest b); cbn [bind]; [|reflexivity]. rewrite <- !app_assoc. reflexivity.
Qed.
Lemma lit_merge_eq : forall D sa sb, lit_merge_sections D sa sb = merge_loop (S (length sa)) D sa sb.
Proof.
  intros D sa sb. unfold lit_merge_sections. rewrite (surjective_pairing (lit_next sa)), (surjective_pairing (lit_next sb)).
  rewrite lit_merge_ok by apply next_none. rewrite !next_cons. destruct (merge_loop _ D sa sb); reflexivity.
Qed.

(** ** Panics *)
Lemma span_panic md D d p : node_span md D d = Panic p -> p = PArith.
Proof.
  unfold node_span, u32_sub, u32_pow2. destruct md.
  - destruct (N.of_nat d <=? N.of_nat D)%N; cbn [bind]; [|intros [= <-]; reflexivity].
    destruct (_ <? 32)%N; [discriminate|intros [= <-]; reflexivity].
  - destruct (N.of_nat d <=? N.of_nat D)%N; cbn [bind]; destruct (_ <? 32)%N; discriminate.
Qed.
Lemma add_panic md a b p : u32_add md a b = Panic p -> p = PArith.
Proof. unfold u32_add. destruct (_ <? _)%N; [discriminate|]. destruct md; [intros [= <-]; reflexivity|discriminate]. Qed.
Lemma rem_panic a b p : u32_rem a b = Panic p -> p = PArith.
Proof. unfold u32_rem. destruct (_ =? _)%N; [intros [= <-]; reflexivity|discriminate]. Qed.
Lemma sub_panic a b p : u5_sub a b = Panic p -> p = PArith.
Proof. unfold u5_sub. destruct (_ <=? _); [discriminate|intros [= <-]; reflexivity]. Qed.

Definition pass_good (n : nat) (c : N) (o : outcome (list tree_node * N * N)) : Prop :=
  match o with
  | Ret (r, _, c') => length r <= n /\ c' = (c + N.of_nat (n - length r))%N
  | Panic p => p = PArith
  end.
Lemma pass_good_pass md D : forall n xs o c, length xs <= n -> pass_good (length xs) c (conceal_pass md D xs o c).
Proof.
  assert (PB : forall A (x : outcome A) k n c, (forall p, x = Panic p -> p = PArith) -> (forall a, pass_good n c (k a)) ->
    pass_good n c (bind x k)).
  { intros A [a|p] k n c P G; cbn [bind]; [apply G|]. cbn. apply P. reflexivity. }
  assert (PR : forall x y n m c, n <= m -> m - n = 1 ->
    pass_good n (c + 0) x -> pass_good m c (' (r, o, c) <- x ;; Ret (y :: r, o, c))).
  { intros [[[r o] c']|p] y n m c L E; cbn [bind pass_good length]; [|auto]. intros [L2 ->]. split; lia. }
  assert (PR2 : forall x y n m c, n <= m -> m - n = 2 ->
    pass_good n (c + 1) x -> pass_good m c (' (r, o, c) <- x ;; Ret (y :: r, o, c))).
  { intros [[[r o] c']|p] y n m c L E; cbn [bind pass_good length]; [|auto]. intros [L2 ->]. split; lia. }
  assert (PR3 : forall x y z n m c, n <= m -> m - n = 2 ->
    pass_good n (c + 0) x -> pass_good m c (' (r, o, c) <- x ;; Ret (y :: z :: r, o, c))).
  { intros [[[r o] c']|p] y z n m c L E; cbn [bind pass_good length]; [|auto]. intros [L2 ->]. split; lia. }
  assert (RA : forall xs o c, conceal_pass md D xs o c = conceal_pass md D xs o (c + 0)) by (intros; rewrite N.add_0_r; reflexivity).
  induction n as [|n IH]; intros xs o c L.
  { destruct xs; [|cbn in L; lia]. cbn. split; lia. }
  destruct xs as [|x xs]; [cbn; split; lia|]. cbn [length] in L. cbn [conceal_pass].
  destruct x as [d1 h1|p1 m1].
  - destruct xs as [|[d2 h2|p2 m2] xs]; cbn [length] in *.
    + apply PB; [apply span_panic|]. intros s. apply PB; [apply add_panic|]. intros o'. cbn. split; lia.
    + destruct (d1 =? d2).
      * apply PB; [apply sub_panic|]. intros d. apply PB; [apply span_panic|]. intros pow. apply PB; [apply rem_panic|]. intros rem.
        destruct (negb (rem =? 0)%N).
        -- apply PB; [apply span_panic|]. intros s. apply PB; [apply add_panic|]. intros o'.
           apply (PR _ _ (S (length xs))); [lia|lia|]. rewrite RA. apply (IH (_ :: _)). cbn; lia.
        -- apply PB; [apply add_panic|]. intros o'. apply (PR2 _ _ (length xs)); [lia|lia|]. apply IH. lia.
      * apply PB; [apply span_panic|]. intros s. apply PB; [apply add_panic|]. intros o'.
        apply (PR _ _ (S (length xs))); [lia|lia|]. rewrite RA. apply (IH (_ :: _)). cbn; lia.
    + apply PB; [apply span_panic|]. intros s. apply PB; [apply add_panic|]. intros o'. apply PB; [apply add_panic|]. intros o''.
      apply (PR3 _ _ _ (length xs)); [lia|lia|]. rewrite RA. apply IH. lia.
  - destruct xs as [|[d2 h2|p2 m2] xs]; cbn [length] in *.
    + apply PB; [apply add_panic|]. intros o'. cbn. split; lia.
    + apply PB; [apply add_panic|]. intros o'. apply (PR _ _ (S (length xs))); [lia|lia|]. rewrite RA. apply (IH (_ :: _)). cbn; lia.
    + apply PB; [apply add_panic|]. intros o'. apply (PR3 _ _ _ (length xs)); [lia|lia|]. rewrite RA. apply IH. lia.
Qed.
Lemma loop_panic md D : forall fuel xs c p, length xs < fuel -> conceal_loop fuel md D xs c = Panic p ->
  p = PArith \/ (p = PDebugAssert /\ md = Debug).
Proof.
  induction fuel as [|fuel IH]; intros xs c p L; [lia|]. cbn [conceal_loop].
  assert (DA : forall b q, debug_assert md b = Panic q -> q = PDebugAssert /\ md = Debug).
  { intros b q. unfold debug_assert. destruct md; [destruct b; [discriminate|intros [= <-]; auto]|discriminate]. }
  destruct (debug_assert md _) eqn:E1; cbn [bind]; [|intros [= <-]; right; eapply DA; exact E1].
  pose proof (pass_good_pass md D _ xs 0%N c (le_n _)) as G.
  destruct (conceal_pass md D xs 0 c) as [[[r o] c']|q]; cbn [bind pass_good] in *; [|intros [= <-]; auto].
  destruct G as [G1 G2]. destruct (c' =? c)%N eqn:EC; [discriminate|].
  destruct (debug_assert md (o =? width_of D)%N) eqn:E2; cbn [bind]; [|intros [= <-]; right; eapply DA; exact E2].
  apply IH. apply N.eqb_neq in EC. lia.
Qed.
Lemma lit_conceal_panics : forall md b protocols p, lit_conceal_except md b protocols = Panic p ->
  p = PArith \/ (p = PDebugAssert /\ md = Debug).
Proof.
  intros md b protocols p. rewrite lit_conceal_eq. unfold conceal_except.
  destruct (conceal_leaves _ _ _ _ _) as [[xs nf] c]. destruct nf; [|discriminate].
  destruct (conceal_loop _ md (mb_depth b) xs c) as [[xs' c']|q] eqn:E; cbn [bind]; [discriminate|]. intros [= <-].
  eapply loop_panic; [|exact E]. lia.
Qed.
Lemma take_length D t : forall it stop bu, length (snd (merge_take D t stop bu it)) <= length it.
Proof.
  induction it as [|n it IH]; intros stop bu; cbn [merge_take]; [cbn; lia|]. destruct stop; [cbn; lia|].
  specialize (IH (buoy_level (snd (buoy_push bu (tn_depth_or n D))) <=? t) (snd (buoy_push bu (tn_depth_or n D)))).
  destruct (merge_take D t _ _ it) as [a r]. cbn [snd length] in *. lia.
Qed.
Lemma merge_loop_panic D : forall fuel la lb p, length la < fuel -> merge_loop fuel D la lb = Panic p -> p = PUnreachable.
Proof.
  induction fuel as [|fuel IH]; intros la lb p L; [lia|]. cbn [merge_loop].
  destruct la as [|n1 ra]; [discriminate|]. destruct lb as [|n2 rb]; [discriminate|]. cbn [length] in L.
  assert (B : forall la' lb' (f : list tree_node -> list tree_node) p, length la' <= length ra ->
    (r <- merge_loop fuel D la' lb' ;; Ret (f r)) = Panic p -> p = PUnreachable).
  { intros la' lb' f q LL. destruct (merge_loop fuel D la' lb') as [r|q'] eqn:E; cbn [bind]; [discriminate|]. intros [= <-].
    eapply IH; [|exact E]. lia. }
  destruct (Nat.compare (tn_depth_or n1 D) (tn_depth_or n2 D)).
  - destruct (tree_node_eqb n1 n2); [apply (B ra rb (cons n1)); lia|].
    destruct (tn_is_leaf n1), (tn_is_leaf n2); [intros [= <-]; reflexivity|apply (B ra rb (cons n1)); lia|
      apply (B ra rb (cons n2)); lia|apply IH; lia].
  - destruct (merge_take D (tn_depth_or n1 D) false (buoy_new (tn_depth_or n2 D)) rb) as [t lb'].
    apply (B ra lb' (fun r => n2 :: t ++ r)). lia.
  - pose proof (take_length D (tn_depth_or n2 D) ra false (buoy_new (tn_depth_or n1 D))) as TL.
    destruct (merge_take D (tn_depth_or n2 D) false (buoy_new (tn_depth_or n1 D)) ra) as [t la'].
    apply (B la' rb (fun r => n1 :: t ++ r)). exact TL.
Qed.
Lemma lit_merge_panics : forall D sa sb p, lit_merge_sections D sa sb = Panic p -> p = PUnreachable.
Proof. intros D sa sb p. rewrite lit_merge_eq. apply merge_loop_panic. lia. Qed.
End WithHash.

Lemma c88_conceal : forall (H : Hasher) md b protocols, lit_conceal_except md b protocols = conceal_except md b protocols.
Proof. exact @lit_conceal_eq. Qed.
Lemma c88_merge : forall D sa sb, lit_merge_sections D sa sb = merge_loop (S (length sa)) D sa sb.
Proof. exact lit_merge_eq. Qed.
Lemma c88_panics :
  (forall (H : Hasher) md b protocols p, lit_conceal_except md b protocols = Panic p ->
     p = PArith \/ (p = PDebugAssert /\ md = Debug)) /\
  (forall D sa sb p, lit_merge_sections D sa sb = Panic p -> p = PUnreachable).
Proof. split; [exact @lit_conceal_panics|exact lit_merge_panics]. Qed.
