(** C33, C67 and C79: derived equalities, all engine calls with failing encoders, values of the placeholders. *)
From Verif Require Import Base BaseFacts OrdMap Strict Digest Merkle MpcAtoms MpcTree MpcBlock Engine EngineIo Schemes Dumb Api SpecHash SpecMerkle SpecEngine MerkleProofs EngineProofs MiscProofs HashFacts.
Local Open Scope nat_scope.

(** ** C33 *)
Lemma tree_node_eqb_eq a b : tree_node_eqb a b = true <-> a = b.
Proof.
  destruct a as [d h|p m], b as [d' h'|p' m']; cbn; try (split; discriminate).
  - rewrite andb_true_iff, Nat.eqb_eq, b32_eqb_eq. split; [intros [-> ->]; reflexivity|intros [= -> ->]; split; reflexivity].
  - rewrite andb_true_iff, !b32_eqb_eq. split; [intros [-> ->]; reflexivity|intros [= -> ->]; split; reflexivity].
Qed.
Lemma c33_equality :
  (forall a b, b32_eqb a b = true <-> a = b) /\ (forall a b, method_eqb a b = true <-> a = b) /\
  (forall a b, tree_node_eqb a b = true <-> a = b) /\ (forall a b, merkle_tree_eqb a b = true <-> a = b).
Proof.
  split; [exact b32_eqb_eq|split; [|split; [exact tree_node_eqb_eq|exact merkle_tree_eqb_eq]]].
  intros [] []; cbn; split; reflexivity.
Qed.

(** ** C67 *)
Lemma inner_io_true md e bs : inner_commit_io md e (bs, true) = inner_commit_to md e bs.
Proof. unfold inner_commit_io, inner_commit_to. destruct (debug_assert md _); [|reflexivity]. destruct md; reflexivity. Qed.
Lemma inner_io_debug e bs e' : inner_commit_io Debug e (bs, false) <> Ret e'.
Proof. unfold inner_commit_io. destruct (debug_assert Debug _); discriminate. Qed.
Lemma inner_io_release e bs ok : inner_commit_io Release e (bs, ok) = inner_commit_to Release e bs.
Proof. reflexivity. Qed.

Lemma c67_calls : forall (H : Hasher) md e,
  (forall A (T : typed A) v,
     commit_to_serialized_io md (ty T) (enc (ty_codec T) v, true) e = commit_to_serialized md T v e) /\
  (forall A (T : typed A) v,
     commit_to_option_io md (ty T) (enc (c_option (ty_codec T)) v, true) e = commit_to_option md T v e) /\
  (forall C t (c : codec C) v,
     commit_to_concealed_io md t (Ret (enc c v, true)) e = commit_to_concealed md t c (Ret v) e) /\
  (forall A (T : typed A) min max l,
     commit_to_linear_io md (Ret ColList) min max (ty T) (enc (c_vec (prefix_len max) min max (ty_codec T)) l, true) e
     = commit_to_linear_list md T min max l e) /\
  (forall A (T : typed A) min max l,
     commit_to_linear_io md (Ret ColSet) min max (ty T) (enc (c_vec (prefix_len max) min max (ty_codec T)) l, true) e
     = commit_to_linear_set md T min max l e) /\
  (forall K V (TK : typed K) (TV : typed V) min max l,
     commit_to_linear_io md (k <- commitment_fqn (ty TK) ;; Ret (ColMap k)) min max (ty TV)
       (enc (c_vec (prefix_len max) min max (c_pair (ty_codec TK) (ty_codec TV))) l, true) e
     = commit_to_linear_map md TK TV min max l e).
Proof.
  intros H md e. split; [|split; [|split; [|split; [|split]]]]; intros.
  - unfold commit_to_serialized_io, commit_to_serialized.
    destruct (commitment_fqn (ty T)) as [f|]; [|reflexivity]. cbn [bind].
    destruct (debug_assert md _); [|reflexivity]. cbn [bind]. destruct (debug_assert md _); [|reflexivity]. cbn [bind].
    destruct (push_step _ _) as [e'|]; [|reflexivity]. cbn [bind]. apply inner_io_true.
  - unfold commit_to_option_io, commit_to_option. destruct (commitment_fqn (ty T)) as [f|]; [|reflexivity]. cbn [bind].
    destruct (push_step _ _) as [e'|]; [|reflexivity]. cbn [bind]. apply inner_io_true.
  - unfold commit_to_concealed_io, commit_to_concealed. destruct (commitment_fqn t) as [f|]; [|reflexivity]. cbn [bind].
    destruct (push_step _ _) as [e'|]; [|reflexivity]. cbn [bind]. apply inner_io_true.
  - unfold commit_to_linear_io, commit_to_linear_list. cbn [bind]. destruct (commitment_fqn (ty T)) as [f|]; [|reflexivity]. cbn [bind].
    destruct (push_step _ _) as [e'|]; [|reflexivity]. cbn [bind]. apply inner_io_true.
  - unfold commit_to_linear_io, commit_to_linear_set. cbn [bind]. destruct (commitment_fqn (ty T)) as [f|]; [|reflexivity]. cbn [bind].
    destruct (push_step _ _) as [e'|]; [|reflexivity]. cbn [bind]. apply inner_io_true.
  - unfold commit_to_linear_io, commit_to_linear_map. destruct (commitment_fqn (ty TK)) as [k|]; [|reflexivity]. cbn [bind].
    destruct (commitment_fqn (ty TV)) as [f|]; [|reflexivity]. cbn [bind].
    destruct (push_step _ _) as [e'|]; [|reflexivity]. cbn [bind]. apply inner_io_true.
Qed.

Lemma c67_failing_calls : forall (H : Hasher) t bs e col min max,
  (forall e', commit_to_serialized_io Debug t (bs, false) e <> Ret e' /\ commit_to_option_io Debug t (bs, false) e <> Ret e' /\
     commit_to_concealed_io Debug t (Ret (bs, false)) e <> Ret e' /\
     commit_to_linear_io Debug col min max t (bs, false) e <> Ret e') /\
  commit_to_serialized_io Release t (bs, false) e = commit_to_serialized_io Release t (bs, true) e /\
  commit_to_option_io Release t (bs, false) e = commit_to_option_io Release t (bs, true) e /\
  commit_to_concealed_io Release t (Ret (bs, false)) e = commit_to_concealed_io Release t (Ret (bs, true)) e /\
  commit_to_linear_io Release col min max t (bs, false) e = commit_to_linear_io Release col min max t (bs, true) e.
Proof.
  intros H t bs e col min max. split; [|repeat split; reflexivity].
  intros e'. split; [|split; [|split]].
  - unfold commit_to_serialized_io. destruct (commitment_fqn t); [|discriminate]. cbn [bind].
    destruct (debug_assert Debug _); [|discriminate]. cbn [bind]. destruct (debug_assert Debug _); [|discriminate]. cbn [bind].
    destruct (push_step _ _); [|discriminate]. cbn [bind]. apply inner_io_debug.
  - unfold commit_to_option_io. destruct (commitment_fqn t); [|discriminate]. cbn [bind].
    destruct (push_step _ _); [|discriminate]. cbn [bind]. apply inner_io_debug.
  - unfold commit_to_concealed_io. destruct (commitment_fqn t); [|discriminate]. cbn [bind].
    destruct (push_step _ _); [|discriminate]. cbn [bind]. apply inner_io_debug.
  - unfold commit_to_linear_io. destruct col; [|discriminate]. cbn [bind]. destruct (commitment_fqn t); [|discriminate]. cbn [bind].
    destruct (push_step _ _); [|discriminate]. cbn [bind]. apply inner_io_debug.
Qed.

(** ** C79 *)
Lemma c79_values :
  enc c_leaf dumb_leaf = x11 :: repeat x00 12 /\
  enc c_merkle_node dumb_merkle_node = repeat x00 98 /\
  enc c_tree_node dumb_tree_node = repeat x00 34 /\
  enc c_merkle_concealed dumb_concealed = repeat x00 35 /\
  enc c_merkle_block dumb_block = [x00; x01; x00; x00; x01; x00; x00; x00] ++ repeat x00 34 ++ [x01; x8d; x22] ++ repeat x00 6 /\
  enc c_merkle_tree dumb_tree = repeat x00 18 /\
  enc c_merkle_proof default_proof = repeat x00 8 /\
  b32 zero32 = repeat x00 32.
Proof. repeat split; vm_compute; reflexivity. Qed.

(** ** C36 *)
Lemma unnamed_fqn t : ~ (exists q, has_fqn t q) -> commitment_fqn t = Panic PExpect.
Proof. intros N. unfold commitment_fqn. destruct t as [lib [n|]]; [|reflexivity]. exfalso. apply N. exists (Fqn lib n). reflexivity. Qed.
Lemma fqn_dec t : (exists q, has_fqn t q) \/ ~ (exists q, has_fqn t q).
Proof. destruct t as [lib [n|]]; [left; exists (Fqn lib n); reflexivity|right; intros [[l n] X]; discriminate X]. Qed.
Lemma push_full e s : 255 <= length (en_layout e) -> push_step e s = Panic PExpect.
Proof. intros L. unfold push_step. destruct (Nat.ltb_spec (length (en_layout e)) 255); [lia|reflexivity]. Qed.
Lemma inner_finished e bs : en_finished e = true -> inner_commit_to Debug e bs = Panic PDebugAssert.
Proof. intros F. unfold inner_commit_to. rewrite F. reflexivity. Qed.
Lemma run1_unnamed {H : Hasher} md f e : ~ (exists s, step_for f s) -> run1 md f e = Panic PExpect.
Proof.
  intros N. destruct f as [A T v|A T v|t id|t ls|C t CT c|A T min max l|A T min max l|K V TK TV min max l];
    cbn [run1 step_for] in *; unfold commit_to_serialized, commit_to_option, commit_to_hash, commit_to_merkle,
      commit_to_concealed, commit_to_linear_list, commit_to_linear_set, commit_to_linear_map.
  8:{ destruct (fqn_dec (ty TK)) as [[k Q]|Q]; [|rewrite (unnamed_fqn _ Q); reflexivity].
      destruct (fqn_dec (ty TV)) as [[q Q']|Q']; [|rewrite (fqn_ok _ _ Q), (unnamed_fqn _ Q'); reflexivity].
      exfalso. apply N. eexists. exists k, q. eauto. }
  all: match goal with |- bind (commitment_fqn ?t) _ = _ => destruct (fqn_dec t) as [[q Q]|Q]; [|rewrite (unnamed_fqn _ Q); reflexivity] end;
    exfalso; apply N; eexists; exists q; eauto.
Qed.
Lemma c36_failure : forall (H : Hasher) md f e,
  (~ (exists s, step_for f s) -> run1 md f e = Panic PExpect) /\
  (forall s (name : step_for f s),
     match f with
     | FSerialized T _ => ~ not_reserved_type (ty T) -> run1 Debug f e = Panic PDebugAssert
     | FMerkle _ ls => (2 ^ 32 <= N.of_nat (length ls))%N -> run1 md f e = Panic PExpect
     | _ => True
     end /\
     (allowed_field md f -> 255 <= length (en_layout e) -> run1 md f e = Panic PExpect) /\
     (allowed_field Debug f -> length (en_layout e) < 255 -> en_finished e = true -> run1 Debug f e = Panic PDebugAssert)).
Proof.
  intros H md f e. split; [apply run1_unnamed|]. intros s HS.
  destruct f as [A T v|A T v|t id|t ls|C t CT c|A T min max l|A T min max l|K V TK TV min max l];
    cbn [run1 step_for allowed_field] in *; unfold commit_to_serialized, commit_to_option, commit_to_hash, commit_to_merkle,
      commit_to_concealed, commit_to_linear_list, commit_to_linear_set, commit_to_linear_map.
  8:{ destruct HS as [k [q [Q1 [Q2 _]]]]. rewrite (fqn_ok _ _ Q1), (fqn_ok _ _ Q2). cbn [bind].
      split; [exact I|split; intros _ L].
      - rewrite push_full by exact L. reflexivity.
      - intros F. rewrite push_ok by exact L. cbn [bind]. apply inner_finished. exact F. }
  all: destruct HS as [q [Q _]]; rewrite (fqn_ok _ _ Q); cbn [bind].
  1:{ split; [|split].
      - intros R. cbn [debug_assert].
        destruct (negb (String.eqb (fq_name q) (fq_name merkle_hash_fqn)) || negb (String.eqb (fq_lib q) (fq_lib merkle_hash_fqn)))%bool eqn:E1;
          [|reflexivity]. cbn [bind].
        destruct (negb (String.eqb (fq_name q) (fq_name strict_hash_fqn)) || negb (String.eqb (fq_lib q) (fq_lib strict_hash_fqn)))%bool eqn:E2;
          [|reflexivity].
        exfalso. apply R. split; [apply (names_differ _ _ _ _ Q) in E1; exact E1|apply (names_differ _ _ _ _ Q) in E2; exact E2].
      - intros HA L. rewrite debug_assert_ok.
        2:{ intros D. destruct (HA D) as [N1 _]. apply (names_differ _ _ _ _ Q). exact N1. }
        cbn [bind]. rewrite debug_assert_ok.
        2:{ intros D. destruct (HA D) as [_ N2]. apply (names_differ _ _ _ _ Q). exact N2. }
        cbn [bind]. rewrite push_full by exact L. reflexivity.
      - intros HA L F. destruct (HA eq_refl) as [N1 N2]. rewrite debug_assert_ok by (intros _; apply (names_differ _ _ _ _ Q); exact N1).
        cbn [bind]. rewrite debug_assert_ok by (intros _; apply (names_differ _ _ _ _ Q); exact N2). cbn [bind].
        rewrite push_ok by exact L. cbn [bind]. apply inner_finished. exact F. }
  3:{ split; [|split].
      - intros B. unfold push_step. destruct (_ <? 255); [|reflexivity]. cbn [bind]. rewrite merklize_too_many by exact B. reflexivity.
      - intros _ L. rewrite push_full by exact L. reflexivity.
      - intros B L F. rewrite push_ok by exact L. cbn [bind]. destruct (merklize_spec ls B) as [r [-> _]]. cbn [bind]. apply inner_finished. exact F. }
  all: split; [exact I|split; intros _ L]; [rewrite push_full by exact L; reflexivity|];
    intros F; rewrite push_ok by exact L; cbn [bind]; apply inner_finished; exact F.
Qed.

(** ** C46 *)
Lemma c46_numbers : discriminant Invalid = 0%N /\ discriminant Valid = 1%N /\ discriminant SealIssues = 255%N /\
  forall a b, validity_cmp a b = N.compare (discriminant a) (discriminant b).
Proof. repeat split. Qed.

(** ** C53 *)
Lemma c53_block : forall (H : Hasher) t, let b := block_of_tree t in
  mb_method b = mt_method t /\ mb_depth b = mt_depth t /\ mb_cofactor b = mt_cofactor t /\ mb_entropy b = Some (mt_entropy t) /\
  N.of_nat (length (mb_cross_section b)) = (2 ^ N.of_nat (mt_depth t))%N /\
  forall i, (N.of_nat i < 2 ^ N.of_nat (mt_depth t))%N ->
    match om_get N.ltb (N.of_nat i) (mt_map t) with
    | Some (p, m) => nth_error (mb_cross_section b) i = Some (CommitmentLeaf p m)
    | None => nth_error (mb_cross_section b) i = Some (ConcealedNode (mt_depth t) (HASH (s_entropy (mt_entropy t) (N.of_nat i))))
    end.
Proof.
  intros H t b. do 4 (split; [reflexivity|]). unfold b, block_of_tree, mt_width_limit, width_of, N_range. cbn [mb_cross_section].
  split; [rewrite !map_length, seq_length, N2Nat.id; reflexivity|]. intros i L. rewrite map_map.
  assert (S : nth_error (seq 0 (N.to_nat (2 ^ N.of_nat (mt_depth t)))) i = Some i).
  { rewrite (nth_error_nth' _ 0) by (rewrite seq_length; lia). rewrite seq_nth by lia. reflexivity. }
  pose proof (map_nth_error (fun x => match om_get N.ltb (N.of_nat x) (mt_map t) with
    | Some (p, m) => CommitmentLeaf p m
    | None => ConcealedNode (mt_depth t) (leaf_commit_id (Entropy (mt_entropy t) (N.of_nat x)))
    end) _ _ S) as E. cbv beta in E. destruct (om_get N.ltb (N.of_nat i) (mt_map t)) as [[p m]|]; [exact E|]. rewrite <- entropy_spec. exact E.
Qed.
