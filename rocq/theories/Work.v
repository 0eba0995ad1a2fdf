(** Concealing and committing with counters of the work done. *)
From Verif Require Import Base OrdMap Strict Merkle MpcAtoms MpcTree MpcBlock.
Local Open Scope nat_scope.

(** Passes: rounds of [loop] (block.rs:349). Looks: rounds of [while] (block.rs:355). Hashed: ids computed, of leaves
    (block.rs:340, 215), of inner nodes (block.rs:377) and of the commitment. Moved: nodes shifted by [Vec::remove] at
    block.rs:378, which takes out one element and shifts every later one to the left. *)
Record work : Set := Work { w_passes : N; w_looks : N; w_hashed : N; w_moved : N }.

Section WithHash.
Context {H : Hasher}.

(** block.rs:327-343, [conceal_leaves] with the number of hashed leaves *)
Fixpoint counted_leaves (D : nat) (protocols : list bytes32) (xs : list tree_node)
    (not_found : list bytes32) (count hashed : N) : list tree_node * list bytes32 * N * N :=
  match xs with
  | [] => ([], not_found, count, hashed)
  | ConcealedNode d h :: r =>
      let '(r', nf, c, hashed) := counted_leaves D protocols r not_found count hashed in
      (ConcealedNode d h :: r', nf, c, hashed)
  | CommitmentLeaf p m :: r =>
      if existsb (b32_eqb p) protocols then
        let '(r', nf, c, hashed) := counted_leaves D protocols r (os_remove b32_ltb p not_found) count hashed in
        (CommitmentLeaf p m :: r', nf, c, hashed)
      else
        let '(r', nf, c, hashed) := counted_leaves D protocols r not_found (count + 1)%N (hashed + 1)%N in
        (ConcealedNode D (tn_to_merkle_node (CommitmentLeaf p m)) :: r', nf, c, hashed)
  end.

(** block.rs:352-417, [conceal_pass] with looks, hashed and moved nodes; [tl2] are the nodes behind the removed one *)
Fixpoint counted_pass (md : mode) (D : nat) (xs : list tree_node) (offset count : N) (looks hashed moved : N)
  : outcome (list tree_node * N * N * (N * N * N)) :=
  match xs with
  | [] => Ret ([], offset, count, (looks, hashed, moved))
  | n1 :: tl =>
      match n1 with
      | ConcealedNode depth1 hash1 =>
          match tl with
          | ConcealedNode depth2 hash2 :: tl2 =>
              if depth1 =? depth2 then
                depth <- u5_sub depth1 1 ;;
                pow <- node_span md D depth ;;
                rem <- u32_rem offset pow ;;
                if negb (rem =? 0)%N then
                  s <- node_span md D depth1 ;;
                  offset' <- u32_add md offset s ;;
                  ' (r, o, c, w) <- counted_pass md D tl offset' count (looks + 1)%N hashed moved ;;
                  Ret (n1 :: r, o, c, w)
                else
                  offset' <- u32_add md offset pow ;;
                  ' (r, o, c, w) <- counted_pass md D tl2 offset' (count + 1)%N (looks + 1)%N (hashed + 1)%N
                                      (moved + N.of_nat (length tl2))%N ;;
                  Ret (tn_with hash1 hash2 depth (width_of D) :: r, o, c, w)
              else
                s <- node_span md D depth1 ;;
                offset' <- u32_add md offset s ;;
                ' (r, o, c, w) <- counted_pass md D tl offset' count (looks + 1)%N hashed moved ;;
                Ret (n1 :: r, o, c, w)
          | [] =>
              s <- node_span md D depth1 ;;
              offset' <- u32_add md offset s ;;
              Ret ([n1], offset', count, ((looks + 1)%N, hashed, moved))
          | CommitmentLeaf p2 m2 :: tl2 =>
              s <- node_span md D depth1 ;;
              offset' <- u32_add md offset s ;;
              offset'' <- u32_add md offset' 1 ;;
              ' (r, o, c, w) <- counted_pass md D tl2 offset'' count (looks + 1)%N hashed moved ;;
              Ret (n1 :: CommitmentLeaf p2 m2 :: r, o, c, w)
          end
      | CommitmentLeaf _ _ =>
          match tl with
          | CommitmentLeaf p2 m2 :: tl2 =>
              offset' <- u32_add md offset 2 ;;
              ' (r, o, c, w) <- counted_pass md D tl2 offset' count (looks + 1)%N hashed moved ;;
              Ret (n1 :: CommitmentLeaf p2 m2 :: r, o, c, w)
          | _ =>
              offset' <- u32_add md offset 1 ;;
              ' (r, o, c, w) <- counted_pass md D tl offset' count (looks + 1)%N hashed moved ;;
              Ret (n1 :: r, o, c, w)
          end
      end
  end.

(** block.rs:349-422, [conceal_loop] *)
Fixpoint counted_loop (fuel : nat) (md : mode) (D : nat) (xs : list tree_node) (count : N) (w : work)
  : outcome (list tree_node * N * work) :=
  match fuel with
  | O => Panic PFuel
  | S fuel' =>
      debug_assert md (negb (match xs with [] => true | _ => false end)) ;;;
      ' (xs', offset, count', (looks, hashed, moved)) <-
          counted_pass md D xs 0 count (w_looks w) (w_hashed w) (w_moved w) ;;
      let w' := Work (w_passes w + 1)%N looks hashed moved in
      if (count' =? count)%N then Ret (xs', count', w')
      else
        debug_assert md (offset =? width_of D)%N ;;;
        counted_loop fuel' md D xs' count' w'
  end.

(** block.rs:315-425, [conceal_except] *)
Definition counted_except (md : mode) (b : merkle_block) (protocols : list bytes32)
  : outcome (merkle_block * result N bytes32 * work) :=
  let not_found := os_of_list b32_ltb protocols in
  let '(xs, nf, count, hashed) :=
    counted_leaves (mb_depth b) protocols (mb_cross_section b) not_found 0 0 in
  let w := Work 0 0 hashed 0 in
  match nf with
  | p :: _ => Ret (with_cross_section b xs None, Err p, w)
  | [] =>
      ' (xs', count', w') <- counted_loop (S (length xs)) md (mb_depth b) xs count w ;;
      Ret (with_cross_section b xs' None, Ok count', w')
  end.

(** block.rs:645-663 and 156-157: the commitment of a block; one more id is computed *)
Definition counted_commitment (md : mode) (b : merkle_block) : outcome (bytes32 * work) :=
  ' (c, r, w) <- counted_except md b [] ;;
  match r with
  | Err _ => Panic PExpect
  | Ok _ =>
      debug_assert md (length (mb_cross_section c) =? 1) ;;;
      match mb_cross_section c with
      | ConcealedNode 0 hash :: _ =>
          Ret (concealed_commit_id (MConcealed (mb_depth b) (mb_cofactor b) hash),
               Work (w_passes w) (w_looks w) (w_hashed w + 1)%N (w_moved w))
      | _ => Panic PUnreachable
      end
  end.

(** tree.rs:85-89, block.rs:205-217: an id is computed for every empty position when the tree becomes a block *)
Definition counted_tree (md : mode) (t : merkle_tree) : outcome (bytes32 * work) :=
  ' (c, w) <- counted_commitment md (block_of_tree t) ;;
  let empty := filter (fun pos => match om_get N.ltb pos (mt_map t) with Some _ => false | None => true end)
                      (N_range (mt_width_limit t)) in
  Ret (c, Work (w_passes w) (w_looks w) (w_hashed w + N.of_nat (length empty))%N (w_moved w)).

(** block.rs:725-732 *)
Definition counted_convolve (md : mode) (p : merkle_proof) (pid msg : bytes32)
  : outcome (result (bytes32 * work) invalid_proof) :=
  r <- block_with p pid msg ;;
  match r with
  | Err e => Ret (Err e)
  | Ok block => x <- counted_commitment md block ;; Ret (Ok x)
  end.

End WithHash.
