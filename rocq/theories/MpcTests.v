(** commit_verify/src/mpc/tree.rs and block.rs: the [test_helpers] and [test] modules. Random numbers are arguments:
    a draw is what the two calls of [random] in one iteration of [make_random_messages] give. *)
From Verif Require Import Base OrdMap Strict Digest Merkle MpcAtoms MpcTree MpcBlock Schemes Suites.
Local Open Scope nat_scope.

(** tree.rs:241-253 [make_random_messages]: a draw is a u128 and a u8; [u256::to_le_bytes] of the u128. *)
Notation draw := (N * byte)%type.
Definition make_random_messages (draws : list draw) : message_map :=
  fold_left (fun msgs d => snd (om_insert b32_ltb (b32_of_N (fst d)) (b32_fill (snd d)) msgs)) draws [].

(** tree.rs:228-239 [make_det_messages]: the id is made of [no], not of the number of the iteration. *)
Definition make_det_messages (no : nat) (draws : list byte) : message_map :=
  fold_left (fun msgs x => snd (om_insert b32_ltb (b32_of_N (N.of_nat no)) (b32_fill x) msgs)) (firstn no draws) [].

(** tree.rs:255-263 [make_random_tree]; the source, and the tree if [unwrap] of the result does not panic. The conversion
    of the messages cannot fail: the tests use at most 8192. *)
Definition random_source (msgs : message_map) : multi_source := MultiSource Sha256t 0 msgs None.
Definition make_random_tree (msgs : message_map) (rng : N) : outcome merkle_tree :=
  r <- try_commit (random_source msgs) (Some rng) ;; unwrap r.

(** derived [PartialEq] of [MerkleConcealed], block.rs:133-134 *)
Definition concealed_eqb (a b : merkle_concealed) : bool :=
  (mc_depth a =? mc_depth b) && (mc_cofactor a =? mc_cofactor b)%N && b32_eqb (mc_merkle_root a) (mc_merkle_root b).
(** derived [PartialEq] of [Option<u64>] *)
Definition entropy_eqb (a b : option N) : bool :=
  match a, b with Some x, Some y => (x =? y)%N | None, None => true | _, _ => false end.

(** tree.rs:279-284 [tree_empty]: the test passes if [unwrap] panics printing the error [Empty]. *)
Definition test_tree_empty (rng : N) : outcome unit :=
  r <- try_commit (random_source (make_random_messages [])) (Some rng) ;;
  match r with Err Empty => Ret tt | _ => Panic PAssert end.

(** tree.rs:286-303 [tree_sizing]; the runs are the draws of each call of [make_random_messages], with the entropy. *)
Notation run_of := (list draw * N)%type.
Definition test_tree_sizing (runs : list run_of) : outcome unit :=
  for_each (fun '(draws, rng) => _t <- make_random_tree (make_random_messages draws) rng ;; Ret tt) runs.

Section WithHash.
Context {H : Hasher}.

(** tree.rs:306-338 [tree_huge]: what is printed, without the times. The writer counts the bytes. *)
Definition test_tree_huge (md : mode) (draws : list draw) (rng : N) : outcome (nat * N * N * N * bytes32) :=
  tree <- make_random_tree (make_random_messages draws) rng ;;
  width <- mt_factored_width md tree ;;
  root <- mt_root tree ;;
  Ret (mt_depth tree, mt_cofactor tree, width, N.of_nat (length (enc c_merkle_tree tree)), root).

(** tree.rs:340-352 [tree_structure] *)
Definition test_tree_structure (md : mode) (draws : list draw) (rng : N) : outcome unit :=
  let msgs := make_random_messages draws in
  tree <- make_random_tree msgs rng ;;
  assert (3 <? mt_depth tree) ;;;
  width <- mt_factored_width md tree ;;
  assert (9 <? width)%N ;;;
  _set <- fold_out (fun set '(pid, msg) =>
    let '(fresh, set') := set_insert N.eqb (mt_protocol_id_pos tree pid) set in
    assert fresh ;;;
    assert (match om_get b32_ltb pid (mt_messages tree) with Some x => b32_eqb x msg | None => false end) ;;;
    Ret set') msgs [] ;;
  Ret tt.

(** tree.rs:354-359 [tree_conceal] *)
Definition test_tree_conceal (md : mode) (draws : list draw) (rng : N) : outcome unit :=
  tree <- make_random_tree (make_random_messages draws) rng ;;
  a <- tree_conceal md tree ;;
  b <- block_conceal md (block_of_tree tree) ;;
  assert (concealed_eqb a b).

(** tree.rs:361-368 [tree_id] *)
Definition test_tree_id (md : mode) (draws : list draw) (rng : N) : outcome unit :=
  tree <- make_random_tree (make_random_messages draws) rng ;;
  id <- tree_commit_id md tree ;;
  root <- mt_root tree ;;
  assert (negb (b32_eqb id root)).

(** tree.rs:376-381: the loop drawing an entropy other than the given one; [draws] are the numbers drawn. *)
Fixpoint draw_other (e : N) (draws : list N) : outcome N :=
  match draws with
  | [] => Panic PFuel
  | x :: r => if negb (x =? e)%N then Ret x else draw_other e r
  end.
(** tree.rs:378: assignment to the field [entropy] *)
Definition tree_with_entropy (t : merkle_tree) (e : N) : merkle_tree :=
  MTree (mt_method t) (mt_depth t) e (mt_cofactor t) (mt_messages t) (mt_map t).
(** tree.rs:370-385 [tree_id_entropy] *)
Definition test_tree_id_entropy (md : mode) (draws : list draw) (rng : N) (others : list N) : outcome unit :=
  tree <- make_random_tree (make_random_messages draws) rng ;;
  id1 <- tree_commit_id md tree ;;
  e <- draw_other (mt_entropy tree) others ;;
  id2 <- tree_commit_id md (tree_with_entropy tree e) ;;
  assert (negb (b32_eqb id1 id2)).

(** tree.rs:387-401 [scalability]: the depths of ten trees; the sum divided by ten as [f32] is at most 15 exactly if the
    sum is at most 150 (sums are below 320: 150/10 is exact, and 151/10 rounds to a number above 15). *)
Definition test_scalability (runs : list run_of) : outcome unit :=
  depths <- fold_out (fun depths '(draws, rng) =>
    tree <- make_random_tree (make_random_messages draws) rng ;;
    Ret (depths ++ [mt_depth tree])) runs [] ;;
  assert (fold_left Nat.add depths 0 <=? 150).

(** block.rs:742-755 [entropy] *)
Definition test_entropy (md : mode) (draws : list draw) (rng : N) : outcome unit :=
  tree <- make_random_tree (make_random_messages draws) rng ;;
  let block := block_of_tree tree in
  assert (entropy_eqb (Some (mt_entropy tree)) (mb_entropy block)) ;;;
  cid1 <- block_commit_id md block ;;
  cid2 <- block_commit_id md (with_cross_section block (mb_cross_section block) None) ;;
  assert (b32_eqb cid1 cid2).

(** block.rs:757-772 [single_leaf_tree] *)
Definition test_single_leaf_tree (md : mode) (draws : list draw) (rng : N) : outcome unit :=
  let msgs := make_random_messages draws in
  tree <- make_random_tree msgs rng ;;
  let block := block_of_tree tree in
  ' (pid, msg) <- match msgs with e :: _ => Ret e | [] => Panic PExpect end ;;
  let leaf := Inhabited pid msg in
  cid1 <- match mb_cross_section block with n :: _ => Ret (tn_to_merkle_node n) | [] => Panic PExpect end ;;
  let cid2 := leaf_commit_id leaf in
  assert (b32_eqb cid1 cid2) ;;;
  a <- tree_conceal md tree ;;
  b <- block_conceal md block ;;
  assert (concealed_eqb a b) ;;;
  root <- mt_root tree ;;
  assert (b32_eqb root cid1) ;;;
  x <- tree_commit_id md tree ;;
  y <- block_commit_id md block ;;
  assert (b32_eqb x y).

(** block.rs:776-783, 788-795: the bodies of the loops of [determin_tree] and [sparse_tree] *)
Definition tree_block_agree (md : mode) (msgs : message_map) (rng : N) : outcome unit :=
  tree <- make_random_tree msgs rng ;;
  let block := block_of_tree tree in
  a <- tree_conceal md tree ;;
  b <- block_conceal md block ;;
  assert (concealed_eqb a b) ;;;
  x <- tree_commit_id md tree ;;
  y <- block_commit_id md block ;;
  assert (b32_eqb x y).
(** block.rs:774-784 [determin_tree]: the draws and the entropy for each size *)
Definition test_determin_tree (md : mode) (runs : list (nat * list byte * N)) : outcome unit :=
  for_each (fun '(size, draws, rng) => tree_block_agree md (make_det_messages size draws) rng) runs.
(** block.rs:786-796 [sparse_tree] *)
Definition test_sparse_tree (md : mode) (runs : list run_of) : outcome unit :=
  for_each (fun '(draws, rng) => tree_block_agree md (make_random_messages draws) rng) runs.

(** block.rs:800-826: the body of the loop of [merge_reveal] *)
Definition merge_reveal_once (md : mode) (draws : list draw) (rng : N) : outcome unit :=
  let msgs := make_random_messages draws in
  mpc_tree <- make_random_tree msgs rng ;;
  let mpc_block := block_of_tree mpc_tree in
  proofs <- fold_out (fun ps pid => r <- to_merkle_proof md mpc_block pid ;; p <- unwrap r ;; Ret (ps ++ [p]))
              (map fst msgs) [] ;;
  match combine proofs msgs with
  | [] => Panic PExpect
  | (proof, (pid, msg)) :: iter =>
      r <- block_with proof pid msg ;;
      first <- unwrap r ;;
      merged_block <- fold_out (fun merged '(proof, (pid, msg)) =>
        r <- block_with proof pid msg ;;
        block <- unwrap r ;;
        ' (merged', res) <- merge_reveal md merged block ;;
        match res with Ok _ => Ret merged' | Err _ => Panic PAssert end) iter first ;;
      x <- block_commit_id md merged_block ;;
      y <- tree_commit_id md mpc_tree ;;
      assert (b32_eqb x y)
  end.
(** block.rs:798-828 [merge_reveal] *)
Definition test_merge_reveal (md : mode) (runs : list run_of) : outcome unit :=
  for_each (fun '(draws, rng) => merge_reveal_once md draws rng) runs.

End WithHash.
