(** Extracting proofs, merging blocks and merklizing with counters of the work done; see [Work.v]. *)
From Verif Require Import Base OrdMap Strict Merkle MpcAtoms MpcTree MpcBlock Work.
Local Open Scope nat_scope.

Definition work_none : work := Work 0 0 0 0.
Definition work_add (a b : work) : work :=
  Work (w_passes a + w_passes b) (w_looks a + w_looks b) (w_hashed a + w_hashed b) (w_moved a + w_moved b).

Section WithHash.
Context {H : Hasher}.

(** block.rs:311-313 and 557-590, [to_merkle_proof] *)
Definition counted_proof (md : mode) (b : merkle_block) (pid : bytes32) : outcome (result merkle_proof bytes32 * work) :=
  ' (c, r, w) <- counted_except md b [pid] ;;
  match r with
  | Err p => Ret (Err p, w)
  | Ok _ =>
      m <- path_map md (mb_cross_section c) [] ;;
      debug_assert md (mb_depth c =? length m) ;;;
      if length m <=? 32 then
        Ret (Ok (MProof (mb_method c) (mb_protocol_id_pos c pid) (mb_cofactor c) (map snd m)), w)
      else Panic PExpect
  end.

(** block.rs:628-638, [into_known_proofs] run to the end: every proof starts from a copy of the block *)
Fixpoint counted_proofs (md : mode) (b : merkle_block) (ids : list bytes32)
  : outcome (list (bytes32 * merkle_proof) * work) :=
  match ids with
  | [] => Ret ([], work_none)
  | id :: r =>
      ' (p, w) <- counted_proof md b id ;;
      match p with
      | Err _ => Panic PExpect
      | Ok proof => ' (ps, w') <- counted_proofs md b r ;; Ret ((id, proof) :: ps, work_add w w')
      end
  end.
(** tree.rs:210-213, [into_proofs]; an id is computed for every empty position when the tree becomes a block *)
Definition counted_tree_proofs (md : mode) (t : merkle_tree) : outcome (list (bytes32 * merkle_proof) * work) :=
  ' (ps, w) <- counted_proofs md (block_of_tree t) (known_protocol_ids (block_of_tree t)) ;;
  let empty := filter (fun pos => match om_get N.ltb pos (mt_map t) with Some _ => false | None => true end)
                      (N_range (mt_width_limit t)) in
  Ret (ps, work_add w (Work 0 0 (N.of_nat (length empty)) 0)).

(** block.rs:490-500 and 508-518, [merge_take] with the number of [buoy.push] *)
Fixpoint counted_take (D : nat) (target : nat) (stop : bool) (bu : buoy) (rest : list tree_node) (pushes : N)
  : list tree_node * list tree_node * N :=
  match rest with
  | [] => ([], [], pushes)
  | n :: r =>
      if stop then ([], n :: r, pushes)
      else
        let bu' := snd (buoy_push bu (tn_depth_or n D)) in
        let '(t, r', k) := counted_take D target (buoy_level bu' <=? target) bu' r (pushes + 1)%N in
        (n :: t, r', k)
  end.
(** block.rs:458-524, [merge_loop] with the number of rounds of [while let] and of pushes *)
Fixpoint counted_merge_loop (fuel : nat) (D : nat) (la lb : list tree_node) (rounds pushes : N)
  : outcome (list tree_node * N * N) :=
  match fuel with
  | O => Panic PFuel
  | S fuel' =>
      match la, lb with
      | n1 :: ra, n2 :: rb =>
          let d1 := tn_depth_or n1 D in
          let d2 := tn_depth_or n2 D in
          let rounds := (rounds + 1)%N in
          match Nat.compare d1 d2 with
          | Datatypes.Eq =>
              if tree_node_eqb n1 n2 then
                ' (r, k, p) <- counted_merge_loop fuel' D ra rb rounds pushes ;; Ret (n1 :: r, k, p)
              else
                match tn_is_leaf n1, tn_is_leaf n2 with
                | true, false => ' (r, k, p) <- counted_merge_loop fuel' D ra rb rounds pushes ;; Ret (n1 :: r, k, p)
                | false, true => ' (r, k, p) <- counted_merge_loop fuel' D ra rb rounds pushes ;; Ret (n2 :: r, k, p)
                | false, false => counted_merge_loop fuel' D ra rb rounds pushes
                | true, true => Panic PUnreachable
                end
          | Datatypes.Lt =>
              let '(t, lb', pushes) := counted_take D d1 false (buoy_new d2) rb pushes in
              ' (r, k, p) <- counted_merge_loop fuel' D ra lb' rounds pushes ;; Ret (n2 :: t ++ r, k, p)
          | Datatypes.Gt =>
              let '(t, la', pushes) := counted_take D d2 false (buoy_new d1) ra pushes in
              ' (r, k, p) <- counted_merge_loop fuel' D la' rb rounds pushes ;; Ret (n1 :: t ++ r, k, p)
          end
      | _, _ => Ret (tl la ++ tl lb, rounds, pushes)
      end
  end.
(** block.rs:442-553, [merge_reveal]: three commitments are computed; the work, rounds and pushes beside the result *)
Definition counted_merge (md : mode) (self other : merkle_block)
  : outcome (merkle_block * result N merge_error * (work * N * N)) :=
  ' (base_root, w1) <- counted_commitment md self ;;
  ' (merged_root, w2) <- counted_commitment md other ;;
  if negb (b32_eqb base_root merged_root) then
    Ret (self, Err (UnrelatedBlocks base_root merged_root), (work_add w1 w2, 0%N, 0%N))
  else
    ' (xs, rounds, pushes) <- counted_merge_loop (S (length (mb_cross_section self))) (mb_depth self)
            (mb_cross_section self) (mb_cross_section other) 0 0 ;;
    match xs with
    | [] => Panic PExpect
    | _ =>
        assert (N.of_nat (length xs) <? u32_lim)%N ;;;
        let self' := with_cross_section self xs (mb_entropy self) in
        sum <- span_sum md (mb_depth self) xs 0 ;;
        assert (sum =? mb_width_limit self)%N ;;;
        ' (new_root, w3) <- counted_commitment md self' ;;
        assert (b32_eqb base_root new_root) ;;;
        Ret (self', Ok (N.of_nat (length xs) mod 2 ^ 16)%N, (work_add (work_add w1 w2) w3, rounds, pushes))
    end.

(** merkle.rs:162-195, [merklize_rec] with the number of hashed nodes *)
Fixpoint counted_merklize_rec (fuel : nat) (iter : list bytes32) (depth : nat)
    (branch_width base_width : N) (hashed : N) : outcome (bytes32 * N) :=
  match fuel with
  | O => Panic PFuel
  | S fuel' =>
      if (branch_width <=? 2)%N then
        match iter with
        | [] => Ret (mh_void depth base_width, hashed + 1)%N
        | [b] => Ret (mh_single depth base_width b, hashed + 1)%N
        | b1 :: b2 :: _ => Ret (mh_branches depth base_width b1 b2, hashed + 1)%N
        end
      else
        let div := (branch_width / 2 + branch_width mod 2)%N in
        let slice := firstn (N.to_nat div) iter in
        let rest := skipn (N.to_nat div) iter in
        d1 <- u5_add depth 1 ;;
        ' (b1, hashed) <- counted_merklize_rec fuel' slice d1 div base_width hashed ;;
        d2 <- u5_add depth 1 ;;
        ' (b2, hashed) <- counted_merklize_rec fuel' rest d2 (branch_width - div)%N base_width hashed ;;
        Ret (mh_branches depth base_width b1 b2, hashed + 1)%N
  end.
(** merkle.rs:150-160, [merklize] *)
Definition counted_merklize (nodes : list bytes32) : outcome (bytes32 * N) :=
  let n := N.of_nat (length nodes) in
  if (n <? u32_lim)%N then
    if (n =? 1)%N then
      match nodes with b :: _ => Ret (b, 0%N) | [] => Panic PExpect end
    else counted_merklize_rec 33 nodes 0 n n 0
  else Panic PExpect.
End WithHash.
