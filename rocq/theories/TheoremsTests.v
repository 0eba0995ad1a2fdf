(** C99: what the tests of mpc/tree.rs and mpc/block.rs can report. *)
From Coq Require Import Permutation.
From Verif Require Import Base BaseFacts OrdMap OrdMapFacts Strict Digest Merkle MpcAtoms MpcTree MpcBlock Schemes Suites MpcTests.
From Verif Require Import SpecHash SpecTree SpecValid SpecCommit SpecFull SpecDerived SpecTests HashFacts MerkleProofs MpcTreeProofs TreeFacts
  ConcealProofs MergeProofs DerivedProofs CraftedProofs Engine EngineProofs TheoremsMpc TheoremsBlock TheoremsMore TheoremsExt TheoremsMerkle.
Local Open Scope nat_scope.

(** ** The messages *)
Definition entry (d : draw) : bytes32 * bytes32 := (b32_of_N (fst d), b32_fill (snd d)).
Lemma random_messages draws : make_random_messages draws = om_of_list b32_ltb (map entry draws).
Proof.
  unfold make_random_messages, om_of_list. generalize (@nil (bytes32 * bytes32)).
  induction draws as [|d r IH]; intros m; [reflexivity|]. cbn [fold_left map]. rewrite <- IH. reflexivity.
Qed.
Lemma b32_of_N_small x : (x < 2 ^ 256)%N -> le_val (b32_of_N x) = x.
Proof. intros L. rewrite b32_of_N_bytes, le_val_le. apply N.mod_small. exact L. Qed.
Lemma u128_small draws d : u128 draws -> In d draws -> (fst d < 2 ^ 256)%N.
Proof. intros U I. pose proof (proj1 (Forall_forall _ _) U d I) as B. cbn in B. eapply N.lt_trans; [exact B|reflexivity]. Qed.
Lemma b32_of_N_inj x y : (x < 2 ^ 256)%N -> (y < 2 ^ 256)%N -> b32_of_N x = b32_of_N y -> x = y.
Proof. intros X Y E. rewrite <- (b32_of_N_small x X), <- (b32_of_N_small y Y), E. reflexivity. Qed.
Lemma keys_distinct draws : u128 draws -> different draws -> NoDup (map fst (map entry draws)).
Proof.
  unfold different. rewrite map_map. induction draws as [|d r IH]; intros U N; [constructor|].
  inversion N as [|? ? NI N']; subst. inversion U as [|? ? U1 U']; subst. constructor; [|apply IH; assumption].
  intros Y. apply in_map_iff in Y. destruct Y as [x [E I]]. apply NI. apply in_map_iff. exists x. split; [|exact I].
  apply b32_of_N_inj.
  - exact (u128_small r x U' I).
  - eapply N.lt_trans; [exact U1|reflexivity].
  - exact E.
Qed.
Lemma messages_perm draws : u128 draws -> different draws -> Permutation (map entry draws) (make_random_messages draws).
Proof. intros U N. rewrite random_messages. apply (om_of_list_perm b32_ltb). apply keys_distinct; assumption. Qed.
Lemma messages_length draws : u128 draws -> different draws -> length (make_random_messages draws) = length draws.
Proof. intros U N. rewrite <- (Permutation_length (messages_perm draws U N)). apply map_length. Qed.
Lemma messages_length_le draws : length (make_random_messages draws) <= length draws.
Proof. rewrite random_messages. etransitivity; [apply of_list_length|]. rewrite map_length. lia. Qed.
Lemma messages_some draws : draws <> [] -> make_random_messages draws <> [].
Proof.
  intros N E. destruct draws as [|d r]; [congruence|]. pose proof (of_list_keys (map entry (d :: r)) (b32_of_N (fst d))) as K.
  rewrite <- random_messages, E in K. apply K. left. reflexivity.
Qed.
Lemma source_valid msgs : om_sorted b32_ltb msgs = true -> (N.of_nat (length msgs) <= u24_max)%N -> valid_source (random_source msgs).
Proof. intros S L. unfold valid_source, random_source. cbn. repeat split; [lia|exact L|exact S]. Qed.
Lemma random_valid draws : (N.of_nat (length draws) <= u24_max)%N -> valid_source (random_source (make_random_messages draws)).
Proof.
  intros L. apply source_valid.
  - rewrite random_messages. apply (om_of_list_sorted b32_ltb).
  - pose proof (messages_length_le draws). lia.
Qed.
Lemma fits_apart draws d c : u128 draws -> different draws -> (c < 2 ^ N.of_nat d)%N ->
  fits (make_random_messages draws) d c <-> apart (2 ^ N.of_nat d - c) draws.
Proof.
  intros U N C. unfold fits, apart.
  assert (P : Permutation (map (fun e : bytes32 * bytes32 => s_pos (fst e) c d) (map entry draws))
                          (map (fun e => s_pos (fst e) c d) (make_random_messages draws)))
    by (apply Permutation_map, messages_perm; assumption).
  assert (E : map (fun e : bytes32 * bytes32 => s_pos (fst e) c d) (map entry draws)
              = map (fun x => fst x mod (2 ^ N.of_nat d - c))%N draws).
  { rewrite map_map. apply map_ext_in. intros x I. unfold s_pos, entry. cbn [fst].
    rewrite b32_of_N_small by exact (u128_small _ _ U I). rewrite N.max_r by lia. reflexivity. }
  rewrite <- E. split; intros X; [apply (Permutation_NoDup (Permutation_sym P))|apply (Permutation_NoDup P)]; exact X.
Qed.

(** ** The trees *)
Lemma tree_made msgs rng t : make_random_tree msgs rng = Ret t <-> try_commit (random_source msgs) (Some rng) = Ret (Ok t).
Proof.
  unfold make_random_tree. destruct (try_commit _ _) as [[x|e]|p]; cbn; split; intros E; try discriminate; congruence.
Qed.
Lemma small_tree draws rng : draws <> [] -> length draws <= 10 ->
  exists t, make_random_tree (make_random_messages draws) rng = Ret t.
Proof.
  intros S L. pose proof (messages_length_le draws) as ML. assert (SN : Some rng <> None) by discriminate.
  destruct (c55_few (random_source (make_random_messages draws)) (Some rng)) as [t [E _]]; cbn [random_source ms_messages ms_min_depth ms_static_entropy]; auto.
  - apply random_valid. unfold u24_max. lia.
  - lia.
  - lia.
  - right. apply messages_some. exact S.
  - exists t. apply tree_made. exact E.
Qed.
Lemma room_tree D draws rng : D <= 31 -> draws <> [] -> (N.of_nat (length draws) <= u24_max)%N -> u128 draws -> different draws -> room D draws ->
  exists t, make_random_tree (make_random_messages draws) rng = Ret t /\ mt_depth t <= D.
Proof.
  intros HD NE L U N [d [c [Hd [Hc [Hw A]]]]]. assert (SN : Some rng <> None) by discriminate.
  assert (C : (c < 2 ^ N.of_nat d)%N) by (assert (2 ^ N.of_nat d <> 0)%N by (apply N.pow_nonzero; lia); lia).
  pose proof (messages_length draws U N) as ML.
  assert (W : allowed 0 (length (make_random_messages draws)) d c /\ fits (make_random_messages draws) d c).
  { split; [|apply fits_apart; assumption]. unfold allowed. rewrite ML. split; [lia|]. split; [|split; [exact Hc|]].
    - assert (NN : (N.of_nat (length (map (fun x => fst x mod (2 ^ N.of_nat d - c)) draws)) <= 2 ^ N.of_nat d - c)%N).
      { apply NoDup_bound; [exact A|]. intros x I. apply in_map_iff in I. destruct I as [y [<- _]]. apply N.mod_lt. lia. }
      rewrite map_length in NN. lia.
    - destruct (Nat.eqb_spec d 0) as [->|X]; [change (2 ^ N.of_nat 0)%N with 1%N in Hw; lia|].
      replace d with (Datatypes.S (d - 1)) in Hw by lia. rewrite Nat2N.inj_succ, N.pow_succ_r' in Hw. lia. }
  destruct (c05_first_fit (random_source (make_random_messages draws)) (Some rng)) as [[_ [E0 _]]|[[_ [NO _]]|[_ [t [E [_ MIN]]]]]];
    cbn [random_source ms_messages ms_min_depth ms_static_entropy] in *.
  - apply random_valid. exact L.
  - right. exact SN.
  - exfalso. rewrite ML in E0. destruct draws; [congruence|discriminate].
  - exfalso. exact (NO _ _ W).
  - exists t. split; [apply tree_made; exact E|]. destruct (MIN _ _ W) as [X|[X _]]; cbn in X; lia.
Qed.
Lemma concealed_eqb_refl x : concealed_eqb x x = true.
Proof. unfold concealed_eqb. rewrite Nat.eqb_refl, N.eqb_refl, b32_eqb_refl. reflexivity. Qed.
Lemma for_each_all {A} (f : A -> outcome unit) l : Forall (fun x => f x = Ret tt) l -> for_each f l = Ret tt.
Proof. induction 1 as [|x r E _ IH]; [reflexivity|]. cbn. rewrite E. cbn. exact IH. Qed.
Lemma agree_ok (H : Hasher) md msgs rng t : valid_source (random_source msgs) -> make_random_tree msgs rng = Ret t ->
  tree_block_agree md msgs rng = Ret tt.
Proof.
  intros V E. unfold tree_block_agree. rewrite E. cbn [bind]. apply tree_made in E.
  destruct (c07_one_commitment H md _ _ _ V E) as [c [root [_ [_ [_ [T [B _]]]]]]]. rewrite T, B. cbn [bind].
  unfold tree_commit_id, block_commit_id. rewrite T, B. cbn [bind]. unfold assert. rewrite concealed_eqb_refl. cbn. rewrite b32_eqb_refl. reflexivity.
Qed.

(** ** Tests which always pass *)
Lemma det_messages no draws x : 0 < no <= length draws -> nth_error draws (no - 1) = Some x ->
  make_det_messages no draws = [(b32_of_N (N.of_nat no), b32_fill x)].
Proof.
  intros L X. unfold make_det_messages. generalize (b32_of_N (N.of_nat no)) as k. intros k.
  assert (G : forall l m, (m = [] \/ exists v, m = [(k, v)]) ->
    fold_left (fun msgs x => snd (om_insert b32_ltb k (b32_fill x) msgs)) l m =
    match rev l with [] => m | x :: _ => [(k, b32_fill x)] end).
  { intros l. pattern l. apply rev_ind; [reflexivity|]. clear. intros x l IH m M. rewrite fold_left_app, rev_app_distr. cbn [fold_left rev app].
    rewrite (IH m M).
    assert (Y : match rev l with [] => m | x0 :: _ => [(k, b32_fill x0)] end = [] \/
                exists v, match rev l with [] => m | x0 :: _ => [(k, b32_fill x0)] end = [(k, v)]).
    { destruct (rev l); [exact M|right; eauto]. }
    destruct Y as [->|[v ->]]; [reflexivity|]. cbn [om_insert]. rewrite so_irrefl. reflexivity. }
  rewrite G by auto.
  assert (R : exists l, firstn no draws = l ++ [x]).
  { apply nth_error_split in X. destruct X as [l1 [l2 [-> Ll]]]. exists l1. replace no with (length l1 + 1) by lia.
    rewrite firstn_app_2. reflexivity. }
  destruct R as [l ->]. rewrite rev_app_distr. reflexivity.
Qed.
Lemma det_valid no draws : 0 < no <= length draws -> exists k v, make_det_messages no draws = [(k, v)].
Proof.
  intros L. destruct (nth_error draws (no - 1)) as [x|] eqn:X.
  - exists (b32_of_N (N.of_nat no)), (b32_fill x). apply det_messages; assumption.
  - apply nth_error_None in X. lia.
Qed.
Lemma single_tree (H : Hasher) k v rng : exists t, make_random_tree [(k, v)] rng = Ret t /\
  mt_depth t = 0 /\ mt_cofactor t = 0%N /\ mt_entropy t = rng /\ mt_messages t = [(k, v)] /\ good_tree t.
Proof.
  destruct (c62_single H Debug Sha256t k v None (Some rng) rng eq_refl) as [t [E [D [C [R _]]]]]. exists t.
  assert (V : valid_source (random_source [(k, v)])) by (apply source_valid; [reflexivity|unfold u24_max; cbn; lia]).
  split; [apply tree_made; exact E|]. split; [exact D|]. split; [exact C|]. split; [exact R|]. split.
  - destruct (c04_placement _ _ _ V E) as [_ [_ [M _]]]. exact M.
  - exact (try_commit_good _ _ _ V E).
Qed.
Lemma single_full (H : Hasher) t k v : good_tree t -> mt_depth t = 0 -> mt_messages t = [(k, v)] -> tree_full t = PLeaf k v.
Proof.
  intros G D M. assert (I : In (k, v) (pleaves (tree_full t))) by (apply (tree_full_pleaves t k v G); rewrite M; left; reflexivity).
  unfold tree_full in *. rewrite D in *. cbn [full_tree] in *. unfold slot in *. destruct (om_get N.ltb 0%N (mt_map t)) as [[p m]|].
  - destruct I as [E|[]]. injection E as -> ->. reflexivity.
  - destruct I.
Qed.
Lemma conceal_ok (H : Hasher) md draws rng : draws <> [] -> length draws <= 10 -> test_tree_conceal md draws rng = Ret tt.
Proof.
  intros S L. destruct (small_tree draws rng S L) as [t E]. unfold test_tree_conceal. rewrite E. cbn [bind]. apply tree_made in E.
  assert (V : valid_source (random_source (make_random_messages draws))) by (apply random_valid; unfold u24_max; lia).
  destruct (c07_one_commitment H md _ _ _ V E) as [c [root [_ [_ [_ [T [B _]]]]]]]. rewrite T, B. cbn [bind]. rewrite concealed_eqb_refl. reflexivity.
Qed.
Lemma entropy_ok (H : Hasher) md draws rng : draws <> [] -> length draws <= 10 -> test_entropy md draws rng = Ret tt.
Proof.
  intros S L. destruct (small_tree draws rng S L) as [t E]. unfold test_entropy. rewrite E. cbn [bind]. apply tree_made in E.
  assert (V : valid_source (random_source (make_random_messages draws))) by (apply random_valid; unfold u24_max; lia).
  change (mb_entropy (block_of_tree t)) with (Some (mt_entropy t)). cbn [entropy_eqb]. rewrite N.eqb_refl. cbn [assert bind].
  change (block_commit_id md (with_cross_section (block_of_tree t) (mb_cross_section (block_of_tree t)) None)) with (block_commit_id md (block_of_tree t)).
  destruct (c07_one_commitment H md _ _ _ V E) as [c [root [_ [B _]]]]. rewrite ce_block_id in B. rewrite B. cbn [bind]. rewrite b32_eqb_refl. reflexivity.
Qed.
Lemma single_ok (H : Hasher) md d rng : test_single_leaf_tree md [d] rng = Ret tt.
Proof.
  unfold test_single_leaf_tree. change (make_random_messages [d]) with [entry d]. destruct (entry d) as [k v].
  destruct (single_tree H k v rng) as [t [E [D [C [R [M G]]]]]]. rewrite E. cbn [bind].
  rewrite block_of_tree_flatten, (single_full H t k v G D M). cbn [flatten bind tn_to_merkle_node].
  rewrite b32_eqb_refl. cbn [assert bind]. apply tree_made in E.
  assert (V : valid_source (random_source [(k, v)])) by (apply source_valid; [reflexivity|unfold u24_max; cbn; lia]).
  destruct (c07_one_commitment H md _ _ _ V E) as [c [root [X [Y [_ [T [B Q]]]]]]]. rewrite ce_tree_id in X. rewrite ce_block_id in Y.
  rewrite T, B. cbn [bind]. rewrite concealed_eqb_refl. cbn [assert bind].
  rewrite tree_root_ok by lia. rewrite (single_full H t k v G D M). cbn [bind phash]. rewrite leaf_spec, b32_eqb_refl. cbn [assert bind].
  rewrite X, Y. cbn [bind]. rewrite b32_eqb_refl. reflexivity.
Qed.
Lemma tests_merge_loop (H : Hasher) md t : good_tree t -> forall l proofs b pt,
  Forall2 (fun e pf => exists b' pt', block_with pf (fst e) (snd e) = Ret (Ok b') /\ view_block t b' pt') l proofs ->
  view_block t b pt ->
  exists b' pt', fold_out (fun merged '(proof, (pid, msg)) =>
        r <- block_with proof pid msg ;;
        block <- unwrap r ;;
        ' (merged', res) <- merge_reveal md merged block ;;
        match res with Ok _ => Ret merged' | Err _ => Panic PAssert end) (combine proofs l) b = Ret b' /\ view_block t b' pt'.
Proof.
  intros G. induction l as [|[p m] l IH]; intros proofs b pt F V; inversion F as [|? pf ? fs [b1 [pt1 [W1 V1]]] F']; subst.
  - exists b, pt. split; [reflexivity|exact V].
  - cbn [combine fold_out]. cbn [fst snd] in W1. rewrite W1. cbn [bind unwrap].
    destruct (view_merge md t b b1 pt pt1 G V V1) as [b2 [E2 [V2 _]]]. rewrite E2. cbn [bind]. exact (IH fs b2 _ F' V2).
Qed.
Lemma proofs_loop (H : Hasher) md t : good_tree t -> forall l acc,
  (forall e, In e l -> In e (mt_messages t)) ->
  exists fs, fold_out (fun ps pid => r <- to_merkle_proof md (block_of_tree t) pid ;; p <- unwrap r ;; Ret (ps ++ [p])) (map fst l) acc = Ret (acc ++ fs) /\
    Forall2 (fun e pf => exists b' pt', block_with pf (fst e) (snd e) = Ret (Ok b') /\ view_block t b' pt') l fs.
Proof.
  intros G. induction l as [|[p m] l IH]; intros acc I.
  - exists []. rewrite app_nil_r. split; [reflexivity|constructor].
  - assert (J : In (p, m) (pleaves (tree_full t))) by (apply (tree_full_pleaves t p m G); apply I; left; reflexivity).
    destruct (view_proof md t _ _ p m G (view_block_tree t G) J) as [pf [b' [P1 [P2 [P3 _]]]]].
    cbn [map fst fold_out]. rewrite P1. cbn [bind unwrap].
    destruct (IH (acc ++ [pf])) as [fs [E F]]; [intros e X; apply I; right; exact X|].
    exists (pf :: fs). rewrite E, <- app_assoc. split; [reflexivity|]. constructor; [|exact F]. exists b'. eexists. split; [exact P2|exact P3].
Qed.
Lemma merge_ok (H : Hasher) md draws rng : draws <> [] -> length draws <= 10 -> merge_reveal_once md draws rng = Ret tt.
Proof.
  intros S L. destruct (small_tree draws rng S L) as [t E]. unfold merge_reveal_once. rewrite E. cbn [bind]. apply tree_made in E.
  assert (V : valid_source (random_source (make_random_messages draws))) by (apply random_valid; unfold u24_max; lia).
  pose proof (try_commit_good _ _ _ V E) as G. destruct (c04_placement _ _ _ V E) as [_ [_ [M _]]]. cbn [random_source ms_messages] in M.
  destruct (proofs_loop H md t G (make_random_messages draws) []) as [fs [P F]]; [rewrite M; auto|]. rewrite P. cbn [bind app].
  pose proof (messages_some draws S) as NE. destruct (make_random_messages draws) as [|[p m] l]; [congruence|].
  inversion F as [|? pf ? fs' [b1 [pt1 [W1 V1]]] F']; subst. cbn [combine]. cbn [fst snd] in W1. rewrite W1. cbn [bind unwrap].
  destruct (tests_merge_loop H md t G l fs' b1 pt1 F' V1) as [b2 [pt2 [E2 V2]]]. rewrite E2. cbn [bind].
  rewrite (view_block_commit md t b2 pt2 G V2). cbn [bind]. rewrite tree_commit_ok by exact G. cbn [bind]. unfold assert.
  rewrite b32_eqb_refl. reflexivity.
Qed.
Lemma c99_always : forall (H : Hasher) md rng,
  test_tree_empty rng = Ret tt /\
  (forall draws (nine : length draws = 9), test_tree_conceal md draws rng = Ret tt) /\
  (forall draws (three : length draws = 3), test_entropy md draws rng = Ret tt) /\
  (forall draws (one : length draws = 1), test_single_leaf_tree md draws rng = Ret tt) /\
  (forall runs (sizes : Forall (fun r => 0 < fst (fst r) <= length (snd (fst r))) runs), test_determin_tree md runs = Ret tt) /\
  (forall runs (sizes : Forall (fun r => 1 <= length (fst r) <= 10) runs),
     test_sparse_tree md runs = Ret tt /\ test_merge_reveal md runs = Ret tt).
Proof.
  intros H md rng. assert (NN : forall (l : list draw), 1 <= length l -> l <> []) by (intros [|] L E; [cbn in L; lia|discriminate]).
  split; [reflexivity|]. split; [|split; [|split; [|split]]].
  - intros d L. apply conceal_ok; [apply NN; lia|lia].
  - intros d L. apply entropy_ok; [apply NN; lia|lia].
  - intros [|d [|]] L; try discriminate. apply single_ok.
  - intros runs F. apply for_each_all. revert F. apply Forall_impl. intros [[n l] e] L. cbn in L.
    destruct (det_valid n l L) as [k [v ->]]. destruct (single_tree H k v e) as [t [E _]]. apply (agree_ok H md _ _ t); [|exact E].
    apply source_valid; [reflexivity|unfold u24_max; cbn; lia].
  - intros runs F. split; apply for_each_all; revert F; apply Forall_impl; intros [l e] L; cbn in L.
    + destruct (small_tree l e) as [t E]; [apply NN; lia|lia|]. apply (agree_ok H md _ _ t); [|exact E]. apply random_valid. unfold u24_max. lia.
    + apply merge_ok; [apply NN; lia|lia].
Qed.
Lemma c99_det : forall no draws (drawn : 1 <= no <= length draws), exists x,
  nth_error draws (no - 1) = Some x /\ make_det_messages no draws = [(b32_of_N (N.of_nat no), b32_fill x)].
Proof.
  intros no draws L. destruct (nth_error draws (no - 1)) as [x|] eqn:X.
  - exists x. split; [reflexivity|]. apply det_messages; [lia|exact X].
  - apply nth_error_None in X. lia.
Qed.

(** ** Tests about commitment ids *)
Lemma tree_entropy msgs rng t : make_random_tree msgs rng = Ret t -> mt_entropy t = rng.
Proof.
  intros E. apply tree_made in E. revert E. unfold try_commit, random_source. cbn [ms_messages ms_min_depth ms_static_entropy ms_method].
  destruct (_ && _); [discriminate|]. destruct (_ <? _)%N; [discriminate|]. cbn [bind].
  destruct (commit_loop 32 msgs 0 1) as [[[[d' c'] m']|er]|]; try discriminate. cbn [bind]. intros E. injection E as <-. reflexivity.
Qed.
Lemma tree_messages draws rng t : (N.of_nat (length draws) <= u24_max)%N -> make_random_tree (make_random_messages draws) rng = Ret t ->
  mt_messages t = make_random_messages draws /\ good_tree t.
Proof.
  intros L E. apply tree_made in E. pose proof (random_valid draws L) as V. destruct (c04_placement _ _ _ V E) as [_ [_ [M _]]].
  split; [exact M|exact (try_commit_good _ _ _ V E)].
Qed.
Lemma root_string (H : Hasher) t : exists x, phash (width_of (mt_depth t)) 0 (tree_full t) = HASH x /\ In x (tree_pre t) /\
  ((exists p m, x = s_leaf p m) \/ (exists e i, x = s_entropy e i) \/ exists W a b, x = s_branch 0 W a b).
Proof.
  unfold tree_pre, pcommit_pre, tree_full. change (width_of (mt_depth t)) with (2 ^ N.of_nat (mt_depth t))%N.
  destruct (mt_depth t) as [|d] eqn:D.
  - cbn [full_tree]. unfold slot. destruct (om_get N.ltb 0%N (mt_map t)) as [[p m]|] eqn:S; cbn [phash ppre].
    + exists (s_leaf p m). split; [reflexivity|]. split; [|eauto]. rewrite !in_app_iff. left. right. left. reflexivity.
    + exists (s_entropy (mt_entropy t) 0). split; [reflexivity|]. split; [|eauto 6]. apply in_or_app. right. unfold entropy_pre. rewrite D.
      apply in_flat_map. exists 0%N. split; [left; reflexivity|]. rewrite S. left. reflexivity.
  - cbn [full_tree phash ppre]. eexists. split; [reflexivity|]. split; [|eauto 8]. rewrite !in_app_iff. left. right. left. reflexivity.
Qed.
Lemma commit_no_node (H : Hasher) D c r x :
  ((exists p m, x = s_leaf p m) \/ (exists e i, x = s_entropy e i) \/ exists W a b, x = s_branch 0 W a b) -> s_commit D c r <> x.
Proof.
  intros X E. apply (f_equal (@length byte)) in E. revert E.
  destruct X as [[p [m ->]]|[[e [i ->]]|[W [a [b ->]]]]]; unfold s_commit, s_leaf, s_entropy, s_branch; rewrite !s_pre_len;
    cbn [length]; rewrite !app_length, ?b32_len32, ?le_length; cbn [length]; rewrite ?app_length, ?b32_len32, ?le_length; cbn; lia.
Qed.
Lemma c99_id : forall (H : Hasher) md draws rng (nine : length draws = 9),
  exists t, make_random_tree (make_random_messages draws) rng = Ret t /\
    (test_tree_id md draws rng = Ret tt \/ collision_in (tree_pre t)).
Proof.
  intros H md draws rng L. destruct (small_tree draws rng) as [t E]; [intros ->; discriminate|lia|]. exists t. split; [exact E|].
  destruct (tree_messages draws rng t) as [_ G]; [unfold u24_max; lia|exact E|].
  unfold test_tree_id. rewrite E. cbn [bind]. rewrite (tree_commit_ok md t G), tree_root_ok by exact (gt_depth _ G). cbn [bind].
  destruct (b32_eqb _ _) eqn:Q; [|left; reflexivity]. right. apply b32_eqb_eq in Q.
  destruct (root_string H t) as [x [X1 [X2 X3]]]. rewrite X1 in Q. unfold pcommit in Q.
  destruct (coll (tree_pre t) (s_commit (mt_depth t) (mt_cofactor t) (phash (2 ^ N.of_nat (mt_depth t)) 0 (tree_full t))) x) as [B|B].
  - unfold tree_pre, pcommit_pre. rewrite !in_app_iff. left. left. right. right. left. reflexivity.
  - exact X2.
  - exact Q.
  - destruct (commit_no_node H _ _ _ _ X3 B).
  - exact B.
Qed.
Lemma draw_found e l : (exists x, In x l /\ x <> e) -> exists x, draw_other e l = Ret x /\ In x l /\ x <> e.
Proof.
  induction l as [|y l IH]; intros [x [I N]]; [destruct I|]. cbn [draw_other]. destruct (N.eqb_spec y e) as [->|Y]; cbn [negb].
  - destruct IH as [z [Z1 [Z2 Z3]]]; [exists x; destruct I as [->|I]; [congruence|split; assumption]|].
    exists z. split; [exact Z1|]. split; [right; exact Z2|exact Z3].
  - exists y. split; [reflexivity|]. split; [left; reflexivity|exact Y].
Qed.
Lemma deep (draws : list draw) rng t : u128 draws -> different draws -> length draws = 9 -> make_random_tree (make_random_messages draws) rng = Ret t ->
  4 <= mt_depth t /\ (N.of_nat (length (mt_messages t)) < 2 ^ N.of_nat (mt_depth t))%N.
Proof.
  intros U D L E. destruct (tree_messages draws rng t) as [M G]; [unfold u24_max; lia|exact E|].
  pose proof (gt_room t G) as R. rewrite M in R |- *. rewrite (messages_length draws U D), L in R |- *.
  assert (X : 4 <= mt_depth t).
  { destruct (Nat.le_gt_cases 4 (mt_depth t)) as [X|X]; [exact X|].
    assert (P : (2 ^ N.of_nat (mt_depth t) <= 2 ^ 3)%N) by (apply N.pow_le_mono_r; lia). change (2 ^ 3)%N with 8%N in P. lia. }
  split; [exact X|]. assert (P : (2 ^ 4 <= 2 ^ N.of_nat (mt_depth t))%N) by (apply N.pow_le_mono_r; lia). change (2 ^ 4)%N with 16%N in P. lia.
Qed.
Lemma c99_id_entropy : forall (H : Hasher) md (draws : list draw) rng others
  (nine : length draws = 9) (bits : u128 draws) (diff : different draws) (rng_u64 : (rng < 2 ^ 64)%N)
  (others_u64 : Forall (fun x => x < 2 ^ 64)%N others) (another : exists x, In x others /\ x <> rng),
  exists t e, make_random_tree (make_random_messages draws) rng = Ret t /\ In e others /\ e <> rng /\
    (test_tree_id_entropy md draws rng others = Ret tt \/ collision_in (tree_pre t ++ tree_pre (tree_with_entropy t e))).
Proof.
  intros H md draws rng others L U D RU OU AN. destruct (small_tree draws rng) as [t E]; [intros ->; discriminate|lia|].
  pose proof (tree_entropy _ _ _ E) as ET. destruct (draw_found rng others AN) as [e [E1 [E2 E3]]]. exists t, e.
  split; [exact E|]. split; [exact E2|]. split; [exact E3|]. destruct (tree_messages draws rng t) as [M G]; [unfold u24_max; lia|exact E|].
  unfold test_tree_id_entropy. rewrite E. cbn [bind]. rewrite (tree_commit_ok md t G). cbn [bind]. rewrite ET, E1. cbn [bind].
  rewrite tree_commit_any by exact (gt_depth _ G). cbn [bind].
  destruct (b32_eqb _ _) eqn:Q; [|left; reflexivity]. right. apply b32_eqb_eq in Q.
  assert (B16 : (500 < 2 ^ 16)%N) by reflexivity. pose proof (gt_cofactor _ G).
  destruct (slots_binding t (tree_with_entropy t e)) as [[_ [_ K]]|K]; try (apply gt_depth; assumption); try exact Q; cbn [tree_with_entropy mt_cofactor mt_depth mt_entropy]; try lia.
  - exact (gt_depth _ G).
  - exact (proj1 (Forall_forall _ _) OU e E2).
  - exfalso. destruct (deep draws rng t U D L E) as [_ F]. destruct (get_free t G F) as [pos [P NP]]. destruct (K pos P) as [_ X].
    specialize (X NP). cbn [tree_with_entropy mt_entropy] in X. congruence.
  - exact K.
Qed.
Lemma c99_id_entropy_refuted : exists draws, length draws = 9 /\ u128 draws /\
  forall (H : Hasher) md rng others, (exists x, In x others /\ x <> rng) ->
    test_tree_id_entropy md draws rng others = Panic PAssert.
Proof.
  exists (repeat (5%N, x07) 9). split; [reflexivity|]. split; [repeat constructor|]. intros H md rng others AN.
  unfold test_tree_id_entropy. assert (M : make_random_messages (repeat (5%N, x07) 9) = [(b32_of_N 5, b32_fill x07)]) by (vm_compute; reflexivity).
  rewrite M. destruct (single_tree H (b32_of_N 5) (b32_fill x07) rng) as [t [E [D [C [R [MM G]]]]]]. rewrite E. cbn [bind].
  rewrite (tree_commit_ok md t G). cbn [bind]. rewrite R. destruct (draw_found rng others AN) as [e [E1 _]]. rewrite E1. cbn [bind].
  rewrite tree_commit_any by exact (gt_depth _ G). cbn [bind].
  assert (S : tree_full (tree_with_entropy t e) = tree_full t).
  { pose proof (single_full H t _ _ G D MM) as F. rewrite F. unfold tree_full in *. cbn [tree_with_entropy mt_depth] in *. rewrite D in *.
    cbn [full_tree] in *. unfold slot in *. cbn [tree_with_entropy mt_map] in *. destruct (om_get N.ltb 0%N (mt_map t)) as [[p m]|]; [exact F|discriminate F]. }
  rewrite S. cbn [tree_with_entropy mt_depth mt_cofactor]. rewrite b32_eqb_refl. reflexivity.
Qed.

(** ** Structure *)
Lemma structure_loop t : good_tree t -> forall l set,
  (forall e, In e l -> In e (mt_messages t)) ->
  NoDup (map (fun e => s_pos (fst e) (mt_cofactor t) (mt_depth t)) l ++ set) ->
  exists s, fold_out (fun set '(pid, msg) =>
    let '(fresh, set') := set_insert N.eqb (mt_protocol_id_pos t pid) set in
    assert fresh ;;;
    assert (match om_get b32_ltb pid (mt_messages t) with Some x => b32_eqb x msg | None => false end) ;;;
    Ret set') l set = Ret s.
Proof.
  intros G. induction l as [|[p m] l IH]; intros set I N; [exists set; reflexivity|].
  cbn [fold_out]. unfold mt_protocol_id_pos at 1. destruct (pos_spec p (mt_cofactor t) (mt_depth t) (gt_depth _ G)) as [-> _].
  cbn [map app fst] in N. inversion N as [|? ? NI N']; subst. unfold set_insert at 1.
  assert (X : existsb (fun y => (y =? s_pos p (mt_cofactor t) (mt_depth t))%N) set = false).
  { destruct (existsb _ _) eqn:X; [|reflexivity]. exfalso. apply NI. apply existsb_exists in X. destruct X as [y [Y1 Y2]].
    apply N.eqb_eq in Y2. subst y. apply in_or_app. right. exact Y1. }
  rewrite X. cbn [assert bind].
  rewrite (om_In_get b32_ltb p m (mt_messages t) (gt_messages _ G) (I _ (or_introl eq_refl))). rewrite b32_eqb_refl. cbn [assert bind].
  apply IH; [intros e J; apply I; right; exact J|]. apply (Permutation_NoDup (l := s_pos p (mt_cofactor t) (mt_depth t) :: map (fun e => s_pos (fst e) (mt_cofactor t) (mt_depth t)) l ++ set)).
  - apply Permutation_middle.
  - exact N.
Qed.
Lemma structure_width md (draws : list draw) rng t : u128 draws -> different draws -> length draws = 9 -> make_random_tree (make_random_messages draws) rng = Ret t ->
  test_tree_structure md draws rng = if (9 <? 2 ^ N.of_nat (mt_depth t) - mt_cofactor t)%N then Ret tt else Panic PAssert.
Proof.
  intros U D L E. destruct (tree_messages draws rng t) as [M G]; [unfold u24_max; lia|exact E|].
  destruct (deep draws rng t U D L E) as [X _]. unfold test_tree_structure. rewrite E. cbn [bind].
  replace (3 <? mt_depth t) with true by (symmetry; apply Nat.ltb_lt; lia). cbn [assert bind].
  unfold mt_factored_width, mt_width_limit, width_of. pose proof (gt_cofactor_width _ G). rewrite u32_sub_ok by lia. cbn [bind].
  destruct (9 <? _)%N; cbn [assert bind]; [|reflexivity]. rewrite <- M.
  destruct (structure_loop t G (mt_messages t) []) as [s Es]; [auto|rewrite app_nil_r; exact (gt_distinct _ G)|]. rewrite Es. reflexivity.
Qed.
Lemma c99_structure : forall md (draws : list draw) rng
  (nine : length draws = 9) (bits : u128 draws) (diff : different draws),
  let fails := apart 9 draws /\ forall w, (10 <= w <= 16)%N -> ~ apart w draws in
  (fails /\ test_tree_structure md draws rng = Panic PAssert) \/ (~ fails /\ test_tree_structure md draws rng = Ret tt).
Proof.
  intros md draws rng L U D. cbv zeta. destruct (small_tree draws rng) as [t E]; [intros ->; discriminate|lia|].
  rewrite (structure_width md draws rng t U D L E). assert (SN : Some rng <> None) by discriminate. pose proof (messages_length draws U D) as ML.
  destruct (deep draws rng t U D L E) as [X _]. apply tree_made in E.
  destruct (c05_first_fit (random_source (make_random_messages draws)) (Some rng)) as [[_ [E0 _]]|[[_ [_ E0]]|[_ [t' [E' [[W1 W2] MIN]]]]]];
    cbn [random_source ms_messages ms_min_depth ms_static_entropy] in *.
  - apply random_valid. unfold u24_max. lia.
  - right. exact SN.
  - rewrite ML, L in E0. discriminate.
  - unfold random_source in E, E0. rewrite E in E0. discriminate.
  - unfold random_source in E, E'. rewrite E in E'. injection E' as <-. destruct W1 as [W1 [W3 [W4 W5]]].
    replace (mt_depth t =? 0) with false in W5 by (symmetry; apply Nat.eqb_neq; lia).
    assert (HW : (2 ^ N.of_nat (mt_depth t) = 2 * 2 ^ N.of_nat (mt_depth t - 1))%N).
    { rewrite <- N.pow_succ_r'. f_equal. lia. }
    assert (P0 : (2 ^ N.of_nat (mt_depth t - 1) <> 0)%N) by (apply N.pow_nonzero; lia).
    apply (fits_apart draws (mt_depth t) (mt_cofactor t) U D) in W2; [|lia].
    assert (CAND : forall c, (c <= 7)%N -> apart (16 - c) draws -> not_after (mt_depth t, mt_cofactor t) (4, c)).
    { intros c Hc A. apply MIN. split.
      - unfold allowed. rewrite ML, L. cbn [Nat.eqb]. change (2 ^ N.of_nat 4)%N with 16%N. change (2 ^ N.of_nat (4 - 1))%N with 8%N. lia.
      - apply (fits_apart draws 4 c U D); change (2 ^ N.of_nat 4)%N with 16%N; [lia|exact A]. }
    destruct (N.ltb_spec 9 (2 ^ N.of_nat (mt_depth t) - mt_cofactor t)) as [B|B].
    + right. split; [|reflexivity]. intros [F1 F2]. destruct (CAND 7%N) as [K|[K1 K2]]; [lia|exact F1| |]; cbn [fst snd] in *.
      * lia.
      * rewrite K1 in *. change (2 ^ N.of_nat 4)%N with 16%N in *. apply (F2 (16 - mt_cofactor t)%N); [lia|exact W2].
    + left. split; [|reflexivity].
      assert (X4 : mt_depth t = 4).
      { destruct (Nat.eq_dec (mt_depth t) 4) as [Y|Y]; [exact Y|]. exfalso.
        assert (2 ^ 4 <= 2 ^ N.of_nat (mt_depth t - 1))%N by (apply N.pow_le_mono_r; lia). change (2 ^ 4)%N with 16%N in *. lia. }
      rewrite X4 in *. change (2 ^ N.of_nat 4)%N with 16%N in *. change (2 ^ N.of_nat (4 - 1))%N with 8%N in *.
      assert (RM : (9 <= 16 - mt_cofactor t)%N).
      { pose proof (NoDup_bound _ (16 - mt_cofactor t)%N W2) as NB. rewrite map_length, L in NB. apply NB. intros x I. apply in_map_iff in I.
        destruct I as [y [<- _]]. apply N.mod_lt. lia. }
      assert (C7 : mt_cofactor t = 7%N) by lia. rewrite C7 in *. split; [exact W2|].
      intros w Hw A. destruct (CAND (16 - w)%N) as [K|[_ K]]; [lia| | |]; cbn [fst snd] in *.
      * replace (16 - (16 - w))%N with w by lia. exact A.
      * lia.
      * lia.
Qed.
Lemma nodup_NoDup (l : list N) : nodup N.eq_dec l = l -> NoDup l.
Proof. intros E. rewrite <- E. apply NoDup_nodup. Qed.
Definition narrow : list draw := map (fun x => (x, x01)) [37; 69; 80; 94; 102; 113; 117; 151; 155]%N.
Lemma c99_structure_refuted : exists draws, length draws = 9 /\ u128 draws /\ different draws /\
  forall md rng, test_tree_structure md draws rng = Panic PAssert.
Proof.
  exists narrow. split; [reflexivity|]. split; [repeat constructor|]. split.
  - apply nodup_NoDup. vm_compute. reflexivity.
  - intros md rng. destruct md; vm_compute; reflexivity.
Qed.

(** ** Sizes *)
Lemma run_tree D draws rng : D <= 31 -> 1 <= length draws <= 10 /\ D = 31 \/ (draws <> [] /\ (N.of_nat (length draws) <= u24_max)%N /\ u128 draws /\ different draws /\ room D draws) ->
  exists t, make_random_tree (make_random_messages draws) rng = Ret t /\ mt_depth t <= D.
Proof.
  intros HD [[L E]|[NE [L [U [DI R]]]]].
  - destruct (small_tree draws rng) as [t T]; [destruct draws; [cbn in L; lia|discriminate]|lia|]. exists t. split; [exact T|].
    destruct (tree_messages draws rng t) as [_ G]; [unfold u24_max; lia|exact T|]. rewrite E. exact (gt_depth _ G).
  - apply room_tree; assumption.
Qed.
Lemma c99_sizing : forall runs
  (fine : Forall (fun r : run_of => 1 <= length (fst r) <= 10 \/ 
     (1 <= length (fst r) < 1000 /\ u128 (fst r) /\ different (fst r) /\ room 31 (fst r))) runs),
  test_tree_sizing runs = Ret tt.
Proof.
  intros runs F. apply for_each_all. revert F. apply Forall_impl. intros [draws rng] X. cbn [fst] in X.
  destruct (run_tree 31 draws rng) as [t [E _]]; [lia| |rewrite E; reflexivity].
  destruct X as [X|[L X]]; [left; split; [lia|reflexivity]|right]. split; [destruct draws; [cbn in L; lia|discriminate]|].
  split; [unfold u24_max; lia|exact X].
Qed.
Lemma c99_scalability : forall runs
  (ten : length runs = 10)
  (fine : Forall (fun r : run_of => length (fst r) = 500 /\ u128 (fst r) /\ different (fst r) /\ room 15 (fst r)) runs),
  test_scalability runs = Ret tt.
Proof.
  intros runs T F. unfold test_scalability.
  assert (G : forall acc, exists ds, fold_out (fun depths '(draws, rng) =>
    tree <- make_random_tree (make_random_messages draws) rng ;; Ret (depths ++ [mt_depth tree])) runs acc = Ret (acc ++ ds) /\
    length ds = length runs /\ Forall (fun d => d <= 15) ds).
  { clear T. induction F as [|[draws rng] r [L X] _ IH]; intros acc.
    - exists []. rewrite app_nil_r. repeat split. constructor.
    - cbn [fst] in L, X. destruct (run_tree 15 draws rng) as [t [E D]]; [lia| |].
      { right. split; [intros ->; discriminate|]. split; [unfold u24_max; lia|exact X]. }
      cbn [fold_out]. rewrite E. cbn [bind]. destruct (IH (acc ++ [mt_depth t])) as [ds [I1 [I2 I3]]]. exists (mt_depth t :: ds).
      rewrite I1, <- app_assoc. split; [reflexivity|]. split; [cbn; lia|constructor; assumption]. }
  destruct (G []) as [ds [E [L B]]]. rewrite E. cbn [bind app]. rewrite T in L.
  assert (S : forall l a, Forall (fun d => d <= 15) l -> fold_left Nat.add l a <= a + 15 * length l).
  { clear. induction l as [|x l IH]; intros a F; [cbn; lia|]. inversion F as [|? ? X F']; subst. cbn [fold_left length]. specialize (IH (a + x) F'). lia. }
  specialize (S ds 0 B). rewrite L in S. unfold assert. replace (fold_left Nat.add ds 0 <=? 150) with true by (symmetry; apply Nat.leb_le; lia). reflexivity.
Qed.
(** Numbers which are not apart in any width that is tried *)
Definition wall_of (rest : list N) : list draw :=
  map (fun x => (x, x01)) (map (fun k => 8 * k)%N (N_from 0 63) ++
    flat_map (fun d => map (fun j => 2 ^ d - j)%N (N_from 0 8)) (N_from 9 23) ++ rest).
Lemma NoDup_app_disjoint {A} (a b : list A) : NoDup (a ++ b) -> forall x, In x a -> In x b -> False.
Proof.
  induction a as [|y a IH]; cbn; intros N x I J; [exact I|]. inversion N as [|? ? NI N']; subst.
  destruct I as [->|I]; [apply NI, in_or_app; right; exact J|exact (IH N' x I J)].
Qed.
Lemma wall_not_apart rest d c : 9 <= d <= 31 -> (c <= 500)%N -> ~ apart (2 ^ N.of_nat d - c) (wall_of rest).
Proof.
  intros Hd Hc A. unfold apart, wall_of in A. rewrite map_map in A. cbn [fst] in A.
  assert (P : (2 ^ 9 <= 2 ^ N.of_nat d)%N) by (apply N.pow_le_mono_r; lia). change (2 ^ 9)%N with 512%N in P.
  set (w := (2 ^ N.of_nat d - c)%N) in *.
  pose proof (N.div_mod c 8 ltac:(lia)) as DM. pose proof (N.mod_lt c 8 ltac:(lia)) as ML.
  rewrite map_app in A.
  assert (I1 : In ((8 * (c / 8)) mod w)%N (map (fun x => x mod w)%N (map (fun k => 8 * k)%N (N_from 0 63)))).
  { rewrite map_map. apply in_map_iff. exists (c / 8)%N. split; [reflexivity|]. apply N_from_In. change (N.of_nat 63) with 63%N.
    assert (c / 8 < 63)%N by (apply N.div_lt_upper_bound; lia). lia. }
  assert (I2 : In ((2 ^ N.of_nat d - c mod 8) mod w)%N (map (fun x => x mod w)%N
     (flat_map (fun d => map (fun j => 2 ^ d - j)%N (N_from 0 8)) (N_from 9 23) ++ rest))).
  { apply in_map_iff. exists (2 ^ N.of_nat d - c mod 8)%N. split; [reflexivity|]. apply in_or_app. left. apply in_flat_map.
    exists (N.of_nat d). split; [apply N_from_In; change (N.of_nat 23) with 23%N; lia|]. apply in_map_iff. exists (c mod 8)%N. split; [reflexivity|]. apply N_from_In. split; [apply N.le_0_l|exact ML]. }
  assert (EQ : ((2 ^ N.of_nat d - c mod 8) mod w = (8 * (c / 8)) mod w)%N).
  { replace (2 ^ N.of_nat d - c mod 8)%N with (8 * (c / 8) + 1 * w)%N by (unfold w; lia). apply N.mod_add. unfold w. lia. }
  rewrite EQ in I2. exact (NoDup_app_disjoint _ _ A _ I1 I2).
Qed.
Lemma wall_length rest : length (wall_of rest) = 247 + length rest.
Proof. unfold wall_of. rewrite map_length, app_length, app_length. reflexivity. Qed.
Lemma wall_falls rest rng : u128 (wall_of rest) -> different (wall_of rest) -> 10 <= length rest < 1000 ->
  make_random_tree (make_random_messages (wall_of rest)) rng = Panic PExpect.
Proof.
  intros U D L. assert (SN : Some rng <> None) by discriminate. pose proof (messages_length _ U D) as ML. pose proof (wall_length rest) as LW.
  destruct (c05_first_fit (random_source (make_random_messages (wall_of rest))) (Some rng)) as [[_ [E0 _]]|[[_ [_ E0]]|[_ [t' [E' [[[W1 [W3 [W4 _]]] W2] _]]]]]];
    cbn [random_source ms_messages ms_min_depth ms_static_entropy] in *.
  - apply random_valid. unfold u24_max. lia.
  - right. exact SN.
  - rewrite ML in E0. lia.
  - unfold make_random_tree, random_source. unfold random_source in E0. rewrite E0. reflexivity.
  - exfalso. rewrite ML, LW in W3.
    assert (X : 9 <= mt_depth t').
    { destruct (Nat.le_gt_cases 9 (mt_depth t')) as [X|X]; [exact X|].
      assert (P : (2 ^ N.of_nat (mt_depth t') <= 2 ^ 8)%N) by (apply N.pow_le_mono_r; lia). change (2 ^ 8)%N with 256%N in P. lia. }
    assert (P : (2 ^ 9 <= 2 ^ N.of_nat (mt_depth t'))%N) by (apply N.pow_le_mono_r; lia). change (2 ^ 9)%N with 512%N in P.
    apply (fits_apart _ _ _ U D) in W2; [|lia]. revert W2. apply wall_not_apart; lia.
Qed.
Definition filler (n : nat) : list N := N_from (2 ^ 100) n.
Lemma u128_check draws : forallb (fun d => fst d <? 2 ^ 128)%N draws = true -> u128 draws.
Proof.
  intros E. apply Forall_forall. intros d I. rewrite forallb_forall in E. apply N.ltb_lt. exact (E d I).
Qed.
Lemma wall_ok n : n = 22 \/ n = 253 -> u128 (wall_of (filler n)) /\ different (wall_of (filler n)).
Proof.
  intros [->| ->]; (split; [apply u128_check; vm_compute; reflexivity|apply nodup_NoDup; vm_compute; reflexivity]).
Qed.
Definition plain (n : nat) : run_of := (map (fun i => (i, x01)) (N_from 0 n), 0%N).
Lemma for_each_app {A} (f : A -> outcome unit) a b : for_each f a = Ret tt -> for_each f (a ++ b) = for_each f b.
Proof.
  induction a as [|x a IH]; [reflexivity|]. cbn. destruct (f x) as [[]|]; cbn; [exact IH|discriminate].
Qed.
Lemma c99_sizing_refuted : exists runs : list run_of, map (fun r => length (fst r)) runs = sizes /\
  Forall (fun r => u128 (fst r) /\ different (fst r)) runs /\ test_tree_sizing runs = Panic PExpect.
Proof.
  destruct (wall_ok 22 (or_introl eq_refl)) as [U D].
  exists (map plain (removelast sizes) ++ [(wall_of (filler 22), 0%N)]). split; [vm_compute; reflexivity|]. split.
  - apply Forall_app. split; [|constructor; [split; assumption|constructor]]. apply Forall_forall. intros r I. apply in_map_iff in I.
    destruct I as [n [<- I]]. assert (B : forallb (fun n => forallb (fun d => fst d <? 2 ^ 128)%N (fst (plain n))) (removelast sizes) = true) by (vm_compute; reflexivity).
    rewrite forallb_forall in B. split; [apply u128_check, B, I|]. unfold different, plain. cbn [fst]. rewrite map_map. cbn [fst].
    rewrite map_id. unfold N_from. apply FinFun.Injective_map_NoDup; [|apply seq_NoDup]. intros a b E. lia.
  - unfold test_tree_sizing. rewrite for_each_app by (vm_compute; reflexivity). cbn [for_each].
    rewrite wall_falls; [reflexivity|exact U|exact D|]. change (length (filler 22)) with 22. lia.
Qed.
Lemma c99_scalability_refuted : exists runs : list run_of, length runs = 10 /\
  Forall (fun r => length (fst r) = 500 /\ u128 (fst r) /\ different (fst r)) runs /\ test_scalability runs = Panic PExpect.
Proof.
  destruct (wall_ok 253 (or_intror eq_refl)) as [U D].
  exists (repeat (wall_of (filler 253), 0%N) 10). split; [reflexivity|]. split.
  - apply Forall_forall. intros r I. apply repeat_spec in I. subst r. cbn [fst]. split; [|split; assumption]. rewrite wall_length. reflexivity.
  - unfold test_scalability. cbn [repeat fold_out]. rewrite wall_falls; [reflexivity|exact U|exact D|].
    assert (X : length (filler 253) = 253) by (vm_compute; reflexivity). rewrite X. lia.
Qed.
Lemma c99_huge : forall (H : Hasher) md (draws : list draw) rng
  (many : N.of_nat (length draws) = 8192%N) (bits : u128 draws) (diff : different draws) (fit : room 31 draws),
  exists t root, make_random_tree (make_random_messages draws) rng = Ret t /\ length (mt_messages t) = length draws /\ mt_root t = Ret root /\
    test_tree_huge md draws rng = Ret (mt_depth t, mt_cofactor t, 2 ^ N.of_nat (mt_depth t) - mt_cofactor t, 1081362, root)%N.
Proof.
  intros H md draws rng M U D R. destruct (room_tree 31 draws rng) as [t [E _]]; try assumption; [lia|intros ->; discriminate|unfold u24_max; lia|].
  destruct (tree_messages draws rng t) as [MS G]; [unfold u24_max; lia|exact E|].
  exists t. eexists. split; [exact E|]. split; [rewrite MS; apply messages_length; assumption|]. split; [apply tree_root_ok; exact (gt_depth _ G)|].
  unfold test_tree_huge. rewrite E. cbn [bind].
  unfold mt_factored_width, mt_width_limit. change (width_of (mt_depth t)) with (2 ^ N.of_nat (mt_depth t))%N.
  pose proof (gt_cofactor_width _ G). rewrite u32_sub_ok by lia. cbn [bind]. rewrite tree_root_ok by exact (gt_depth _ G). cbn [bind].
  rewrite c64_tree, (gt_map_length _ G), MS, (messages_length draws U D).
  replace (N.of_nat (18 + 64 * length draws + 68 * length draws)) with 1081362%N by lia. reflexivity.
Qed.
