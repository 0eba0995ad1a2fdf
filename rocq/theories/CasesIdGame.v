(** Cases for TheoremsIdGame.v: adversaries, and a hash function for which they win. *)
From Verif Require Import Base BaseFacts OrdMap Digest Merkle MpcAtoms MpcTree MpcBlock Engine Seals Api Strict.
From Verif Require Import SpecHash SpecTree SpecMerkle SpecFull SpecValid SpecFind SpecQuery SpecCommit SpecCodec SpecEngine SpecEnd SpecGame SpecIdGame.
From Verif Require Import StrictProofs CodecProofs TheoremsMpc TheoremsMerkle TheoremsMisc TheoremsQuery TheoremsGame TheoremsEnd TheoremsIdGame.
From Verif Require Import CasesMpc CasesMisc CasesMore CasesExt CasesLocal CasesGame CasesEnd.
Local Open Scope nat_scope.

(** A number and a merklized list of hashes *)
Definition rec_fields (v : N * list bytes32) : list field := [FSerialized u8t (fst v); FMerkle idt (snd v)].
Definition recI (H : Hasher) : commit_encode (N * list bytes32) := CommitEncode (str "pair") idt (fun md v e => @run H md (rec_fields v) e).
Lemma recI_feeds H : feeds_fields H (str "pair") rec_fields (recI H).
Proof. split; reflexivity. Qed.
Definition two_pairs : prog ((N * list bytes32) * (N * list bytes32)) := Ask [x01] (fun _ => Done ((5%N, [p1; p2]), (6%N, [p1; p2; p3]))).
Lemma rec_feeds U v ls : length ls <> 1 -> (N.of_nat (length ls) < 2 ^ 32)%N ->
  Forall2 (@feeds (table U (map flat U))) (rec_fields (v, ls)) [enc (c_le 1) v; b32 cflat].
Proof.
  intros L B. constructor; [reflexivity|constructor; [|constructor]]. exists cflat. split; [|reflexivity].
  replace cflat with (@mthash (table U (map flat U)) (N.of_nat (length ls)) 0 (halves (length ls) ls)).
  - apply (@root_tree (table U (map flat U))); [exact L|apply halves_splits, le_n].
  - destruct (halves (length ls) ls); cbn [mthash]; apply flat_table.
Qed.
Lemma rec_runs U v ls : length ls <> 1 -> (N.of_nat (length ls) < 2 ^ 32)%N ->
  @commit_id (table U (map flat U)) _ Debug (recI (table U (map flat U))) (v, ls) = Ret cflat.
Proof.
  intros L B. set (H := table U (map flat U)).
  assert (R : exists e, @run H Debug (rec_fields (v, ls)) (@engine_new H (str "pair")) = Ret e).
  { destruct (proj2 (@c36_defined H Debug (FSerialized u8t v) (@engine_new H (str "pair")))) as [e1 E1].
    { split; [cbn; lia|split; [reflexivity|split; [|intros _; split; discriminate]]]. eexists. exists (Fqn "Lib" "U8"). split; reflexivity. }
    destruct (proj2 (@c36_defined H Debug (FMerkle idt ls) e1)) as [e2 E2].
    { destruct (@c36_effect H Debug _ _ _ E1) as (st & bs & _ & _ & EL & _ & EF). rewrite EL, EF.
      split; [cbn; lia|split; [reflexivity|split; [eexists; exists (Fqn "Lib" "Id"); split; reflexivity|exact B]]]. }
    exists e2. unfold rec_fields. cbn [run fst snd]. rewrite E1. cbn [bind run]. rewrite E2. reflexivity. }
  destruct R as [e R].
  rewrite (@c34_commit_id H _ Debug (recI H) (v, ls) (rec_fields (v, ls)) _ e eq_refl R (rec_feeds U v ls L B)). f_equal. apply flat_table.
Qed.
Lemma c107_ids_case : exists U, universe 162 U /\ length (str "pair") <= 162 /\ modest 162 1 two_pairs /\
  (forall H, feeds_fields H (str "pair") rec_fields (recI H)) /\
  exists f, length f = length U /\ exec (table U f) two_pairs = ((5%N, [p1; p2]), (6%N, [p1; p2; p3])) /\
    rec_fields (5%N, [p1; p2]) <> rec_fields (6%N, [p1; p2; p3]) /\
    Forall2 same_kind (rec_fields (5%N, [p1; p2])) (rec_fields (6%N, [p1; p2; p3])) /\
    small (table U f) 162 8 (str "pair") (rec_fields (5%N, [p1; p2])) /\
    small (table U f) 162 8 (str "pair") (rec_fields (6%N, [p1; p2; p3])) /\
    @commit_id (table U f) _ Debug (recI (table U f)) (5%N, [p1; p2]) = Ret cflat /\
    @commit_id (table U f) _ Debug (recI (table U f)) (6%N, [p1; p2; p3]) = Ret cflat.
Proof.
  destruct (all_strings 162) as [U UU]. exists U. split; [exact UU|split; [cbn; lia|split; [cbn; split; [lia|intros; exact I]|split; [exact recI_feeds|]]]].
  exists (map flat U). split; [apply flat_list|split; [reflexivity|split; [|split; [|split; [|split; [|split]]]]]].
  - intros E. apply (f_equal (map (fun f => match f with FMerkle _ l => length l | _ => 0 end))) in E. discriminate E.
  - constructor; [|constructor; [|constructor]].
    + apply (sk_serialized N u8t _ 5%N 6%N (c_le_lawful 1)); reflexivity.
    + apply sk_merkle. cbn. split; discriminate.
  - split; [cbn; lia|]. eexists. split; [apply rec_feeds; [discriminate|reflexivity]|].
    unfold s_pre. rewrite !app_length, !b32_length. vm_compute. lia.
  - split; [cbn; lia|]. eexists. split; [apply rec_feeds; [discriminate|reflexivity]|].
    unfold s_pre. rewrite !app_length, !b32_length. vm_compute. lia.
  - apply rec_runs; [discriminate|reflexivity].
  - apply rec_runs; [discriminate|reflexivity].
Qed.

Lemma opI_feeds H : feeds_fields H (str "op") op_fields opI.
Proof.
  split; [reflexivity|]. intros d v. unfold op_fields. cbn [run run1]. unfold opI, derive_strict. cbn [ce_encode].
  destruct (commit_to_serialized d u8t v (@engine_new H (str "op"))); reflexivity.
Qed.
Lemma op_kind v w : (v < 256)%N -> (w < 256)%N -> Forall2 same_kind (op_fields v) (op_fields w).
Proof. intros V W. constructor; [|constructor]. apply (sk_serialized N u8t _ v w (c_le_lawful 1)); assumption. Qed.
Lemma op_small H v : small H 162 0 (str "op") (op_fields v).
Proof.
  split; [cbn; lia|]. exists [enc (c_le 1) v]. split; [repeat constructor|]. unfold s_pre. rewrite !app_length, !b32_length. cbn. lia.
Qed.
(** Seal 0 is closed by publishing the commitment; each client knows one claim. *)
Definition plain_protocol (H : Hasher) : seal_protocol nat bytes32 bytes32 merkle_proof bytes32 nat unit unit :=
  SealProtocol (fun _ _ _ => true)
    (fun pf m => match @convolve H Debug pf p1 m with Ret (Ok c) => Ok c | _ => Err tt end) (fun _ => 0)
    (fun pub p => if b32_eqb pub p then Ok tt else Err tt).
Definition plain_medium (s : nat) : option bytes32 := if Nat.eqb s 0 then Some cflat else None.
Definition spends (op : N) : claim N nat bytes32 := (0, op, (cflat, pf1)).
Definition proof_eqb (a b : merkle_proof) : bool := bytes_eqb (enc c_merkle_proof a) (enc c_merkle_proof b) && proof_okb a && proof_okb b.
Lemma proof_eqb_eq a b : proof_eqb a b = true -> a = b.
Proof.
  unfold proof_eqb. rewrite !andb_true_iff, !proof_okb_ok. intros [[E A] B]. apply bytes_eqb_eq in E.
  destruct c_merkle_proof_lawful as [D _]. pose proof (D a [] A) as X. pose proof (D b [] B) as Y. rewrite E in X. congruence.
Qed.
Definition knows (op : N) (r : nat) (x : claim N nat bytes32) : result unit nat * nat :=
  let '(s, o, (pub, pf)) := x in
  ((if Nat.eqb s 0 && N.eqb o op && b32_eqb pub cflat && proof_eqb pf pf1 then Ok tt else Err s), r).
Lemma op_commits U v : @commit_id (table U (map flat U)) N Debug opI v = Ret (flat []).
Proof.
  set (H := table U (map flat U)).
  assert (R : exists e, @run H Debug (op_fields v) (@engine_new H (str "op")) = Ret e).
  { destruct (proj2 (@c36_defined H Debug (FSerialized u8t v) (@engine_new H (str "op")))) as [e1 E1].
    { split; [cbn; lia|split; [reflexivity|split; [|intros _; split; discriminate]]]. eexists. exists (Fqn "Lib" "U8"). split; reflexivity. }
    exists e1. unfold op_fields. cbn [run]. rewrite E1. reflexivity. }
  destruct R as [e R].
  rewrite (@c34_commit_id H _ Debug opI v (op_fields v) [enc (c_le 1) v] e (proj2 (opI_feeds H) Debug v) R ltac:(repeat constructor)). f_equal. unfold HASH. etransitivity; [apply flat_table|reflexivity].
Qed.
Lemma knows_careful U op : @trusts_only_closed (table U (map flat U)) N nat bytes32 nat unit unit plain_medium
  (plain_protocol (table U (map flat U))) Debug opI nat nat (knows op).
Proof.
  intros r [[s o] [pub pf]] u r' E. unfold knows in E. destruct (Nat.eqb_spec s 0) as [->|]; [|discriminate].
  destruct (N.eqb_spec o op) as [->|]; [|discriminate]. destruct (b32_eqb pub cflat) eqn:P; [|discriminate]. apply b32_eqb_eq in P. subst pub.
  destruct (proof_eqb pf pf1) eqn:Q; [|discriminate]. apply proof_eqb_eq in Q. subst pf.
  split; [apply c60_one_proof_case|split; [reflexivity|]]. exists (flat []). split; [apply op_commits|].
  unfold verify_seal_closing, verify_seals_closing, plain_protocol. cbn.
  rewrite (c85_proof flat) by apply flat_agree. vm_compute. reflexivity.
Qed.
Definition plain_item (op : N) : client_data nat nat nat nat (claim N nat bytes32) := ClientData [spends op] ok0.
Definition spender : prog (bytes32 * (N * merkle_proof) * (N * merkle_proof)) := Ask [x01] (fun _ => Done (p1, (5%N, pf1), (6%N, pf1))).
Lemma c107_double_spend_case : exists U, universe 162 U /\ length (str "op") <= 162 /\ modest 162 1 spender /\
  (forall H, feeds_fields H (str "op") op_fields opI) /\
  exists f, length f = length U /\ exec (table U f) spender = (p1, (5%N, pf1), (6%N, pf1)) /\
    op_fields 5 <> op_fields 6 /\ Forall2 same_kind (op_fields 5) (op_fields 6) /\
    small (table U f) 162 0 (str "op") (op_fields 5) /\ small (table U f) 162 0 (str "op") (op_fields 6) /\
    spent_twice N nat bytes32 nat unit unit nat nat nat nat nat (table U f) opI p1 5%N pf1 6%N pf1.
Proof.
  destruct (all_strings 162) as [U UU]. exists U. split; [exact UU|split; [cbn; lia|split; [cbn; split; [lia|intros; exact I]|split; [exact opI_feeds|]]]].
  exists (map flat U). split; [apply flat_list|split; [reflexivity|split; [|split; [|split; [|split]]]]].
  - intros E. apply (f_equal (map (fun f => match f with FSerialized T v => enc (ty_codec T) v | _ => [] end))) in E. discriminate E.
  - apply op_kind; reflexivity.
  - apply op_small.
  - apply op_small.
  - exists plain_medium, (plain_protocol (table U (map flat U))), Debug, Debug, (knows 5%N), (knows 6%N), (plain_item 5%N), (plain_item 6%N),
      [plain_item 5%N], [plain_item 6%N], 0, 0, 0, cflat, cflat.
    split; [|split; [|split; [apply knows_careful|split; [apply knows_careful|split; [comp|split; [comp|split]]]]]].
    + intros w x c. cbn [plain_protocol sl_convolve]. intros E. exists Debug.
      destruct (@convolve (table U (map flat U)) Debug w p1 x) as [[z|z]|z]; congruence.
    + cbn. intros pub p q v w. destruct (b32_eqb pub p) eqn:E; [|discriminate]. destruct (b32_eqb pub q) eqn:F; [|discriminate].
      intros _ _. apply b32_eqb_eq in E. apply b32_eqb_eq in F. congruence.
    + exists (plain_item 5%N). cbn. auto.
    + exists (plain_item 6%N). cbn. auto.
Qed.
Lemma c107_numbers_case : modest 162 1 spender /\ (N.of_nat 1 <= 2 ^ 100)%N /\ (N.of_nat 0 <= 2 ^ 64)%N /\
  (forall H, feeds_fields H (str "op") op_fields opI).
Proof. split; [cbn; split; [lia|intros; exact I]|split; [vm_compute; discriminate|split; [vm_compute; discriminate|exact opI_feeds]]]. Qed.

Lemma coll_flat U xs : (N.of_nat (length xs) < 2 ^ 32)%N ->
  @merklize_leaves (table U (map flat U)) bytes32 (fun x => @HASH (table U (map flat U)) (@s_pre (table U (map flat U)) s_commit_tag (b32 x))) xs = Ret cflat.
Proof.
  intros B. set (H := table U (map flat U)). unfold merklize_leaves.
  assert (C : forall s, @HASH H s = cflat) by (intros s; etransitivity; [apply flat_table|reflexivity]).
  apply (@c23_balanced H); [rewrite map_length; exact B|].
  replace (map (fun x => @HASH H (@s_pre H s_commit_tag (b32 x))) xs) with (repeat cflat (length xs)).
  2:{ clear B. induction xs as [|x xs IH]; [reflexivity|]. cbn [map length repeat]. rewrite <- IH, C. reflexivity. }
  destruct (Nat.eq_dec (length xs) 1) as [E|N]; [rewrite E; apply (@root_single H)|].
  set (ys := repeat cflat (length xs)). assert (LY : length ys = length xs) by apply repeat_length.
  assert (E : @mthash H (N.of_nat (length ys)) 0 (halves (length ys) ys) = cflat) by (destruct (halves (length ys) ys); cbn [mthash]; apply C).
  rewrite <- LY in N. pose proof (@root_tree H ys _ N (halves_splits (length ys) ys (le_n _))) as R. rewrite E in R. exact R.
Qed.
Definition two_colls : prog (list bytes32 * list bytes32) := Ask [x01] (fun _ => Done ([p2; p1; p2], [p3])).
Lemma c107_vectors_case : exists U, universe 162 U /\ length s_commit_tag <= 162 /\ modest 162 1 two_colls /\
  (forall a b : bytes32, b32 a = b32 b -> a = b) /\ s_commit_tag <> s_node_tag /\
  exists f, length f = length U /\ exec (table U f) two_colls = ([p2; p1; p2], [p3]) /\
    (forall x, In x ([p2; p1; p2] ++ [p3]) -> length (b32 x) + 64 <= 162) /\
    let id x := @HASH (table U f) (@s_pre (table U f) s_commit_tag (b32 x)) in
    @merklize_leaves (table U f) _ id (vec_leaves [p2; p1; p2]) = Ret cflat /\ @merklize_leaves (table U f) _ id (vec_leaves [p3]) = Ret cflat.
Proof.
  destruct (all_strings 162) as [U UU]. exists U.
  split; [exact UU|split; [cbn; lia|split; [cbn; split; [lia|intros; exact I]|split; [exact b32_inj|split; [discriminate|]]]]].
  exists (map flat U). split; [apply flat_list|split; [reflexivity|split; [intros x _; rewrite b32_length; lia|]]].
  cbv zeta. split; apply coll_flat; reflexivity.
Qed.
Lemma c107_sets_case : exists U, universe 162 U /\ length s_commit_tag <= 162 /\ modest 162 1 two_colls /\ StrictOrd b32_ltb /\
  (forall a b : bytes32, b32 a = b32 b -> a = b) /\ s_commit_tag <> s_node_tag /\
  exists f, length f = length U /\ exec (table U f) two_colls = ([p2; p1; p2], [p3]) /\
    ~ (forall x, In x [p2; p1; p2] <-> In x [p3]) /\
    let id x := @HASH (table U f) (@s_pre (table U f) s_commit_tag (b32 x)) in
    @merklize_leaves (table U f) _ id (set_leaves (set_of b32_ltb [p2; p1; p2])) = Ret cflat /\
    @merklize_leaves (table U f) _ id (set_leaves (set_of b32_ltb [p3])) = Ret cflat.
Proof.
  destruct (all_strings 162) as [U UU]. exists U.
  split; [exact UU|split; [cbn; lia|split; [cbn; split; [lia|intros; exact I]|split; [exact b32_ord|split; [exact b32_inj|split; [discriminate|]]]]]].
  exists (map flat U). split; [apply flat_list|split; [reflexivity|split]].
  - intros X. destruct (proj1 (X p2) (or_introl eq_refl)) as [Q|[]]. discriminate Q.
  - cbv zeta. split; apply coll_flat; reflexivity.
Qed.
