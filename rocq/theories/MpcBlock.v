(** commit_verify/src/mpc/block.rs *)
From Verif Require Import Base OrdMap Strict Merkle MpcAtoms MpcTree.

(** block.rs:42 [LeafNotKnown(ProtocolId)] is represented by the id.
    block.rs:50-55 *)
Record invalid_proof : Set := InvalidProof {
  ip_protocol_id : bytes32;
  ip_expected : N;
  ip_actual : N;
  ip_width : N
}.

(** block.rs:59-70 *)
Inductive merge_error : Set :=
| MInvalidProof (e : invalid_proof)
| UnrelatedBlocks (base_root merged_root : bytes32).

(** block.rs:81-96 *)
Inductive tree_node : Set :=
| ConcealedNode (depth : nat) (hash : bytes32)
| CommitmentLeaf (protocol_id message : bytes32).

(** block.rs:74-79 (tags = order) *)
Definition c_tree_node : codec tree_node :=
  c_iso (c_sum x00 x01 (c_pair c_u5 c_b32) (c_pair c_b32 c_b32))
    (fun s => match s with inl (d, h) => ConcealedNode d h | inr (p, m) => CommitmentLeaf p m end)
    (fun n => match n with ConcealedNode d h => inl (d, h) | CommitmentLeaf p m => inr (p, m) end).

(** derived PartialEq, block.rs:72 *)
Definition tree_node_eqb (a b : tree_node) : bool :=
  match a, b with
  | ConcealedNode d h, ConcealedNode d' h' => (d =? d') && b32_eqb h h'
  | CommitmentLeaf p m, CommitmentLeaf p' m' => b32_eqb p p' && b32_eqb m m'
  | _, _ => false
  end.

(** block.rs:106-113 *)
Definition tn_depth (n : tree_node) : option nat :=
  match n with ConcealedNode d _ => Some d | CommitmentLeaf _ _ => None end.
Definition tn_depth_or (n : tree_node) (tree_depth : nat) : nat :=
  match tn_depth n with Some d => d | None => tree_depth end.
(** block.rs:115 *)
Definition tn_is_leaf (n : tree_node) : bool :=
  match n with CommitmentLeaf _ _ => true | _ => false end.

(** block.rs:134-144. depth: u5; cofactor: u16. *)
Record merkle_concealed : Set := MConcealed {
  mc_depth : nat;
  mc_cofactor : N;
  mc_merkle_root : bytes32
}.
(** block.rs:129-130 *)
Definition c_merkle_concealed : codec merkle_concealed :=
  c_iso (c_pair c_u5 (c_pair (c_le 2) c_b32))
    (fun '(d, (c, r)) => MConcealed d c r)
    (fun x => (mc_depth x, (mc_cofactor x, mc_merkle_root x))).

(** block.rs:159-181. depth: u5; cofactor: u16; cross_section: 1..=2^32-1 nodes;
    entropy: Option<u64>. *)
Record merkle_block : Set := MBlock {
  mb_method : method;
  mb_depth : nat;
  mb_cofactor : N;
  mb_cross_section : list tree_node;
  mb_entropy : option N
}.
(** block.rs:154-155 *)
Definition c_merkle_block : codec merkle_block :=
  c_iso (c_pair c_method (c_pair c_u5 (c_pair (c_le 2)
          (c_pair (c_vec 4 1 (u32_lim - 1) c_tree_node) (c_option (c_le 8))))))
    (fun '(m, (d, (c, (x, e)))) => MBlock m d c x e)
    (fun b => (mb_method b, (mb_depth b, (mb_cofactor b, (mb_cross_section b, mb_entropy b))))).

(** block.rs:671-690. pos: u32; cofactor: u16; path: at most 32 hashes. *)
Record merkle_proof : Set := MProof {
  mp_method : method;
  mp_pos : N;
  mp_cofactor : N;
  mp_path : list bytes32
}.
(** block.rs:668-669 *)
Definition c_merkle_proof : codec merkle_proof :=
  c_iso (c_pair c_method (c_pair (c_le 4) (c_pair (c_le 2) (c_vec 1 0 32 c_b32))))
    (fun '(m, (p, (c, x))) => MProof m p c x)
    (fun p => (mp_method p, (mp_pos p, (mp_cofactor p, mp_path p)))).

(** block.rs:598, 593-595 *)
Definition mb_width_limit (b : merkle_block) : N := width_of (mb_depth b).
Definition mb_protocol_id_pos (b : merkle_block) (p : bytes32) : N :=
  protocol_id_pos p (mb_cofactor b) (mb_depth b).
(** block.rs:602 *)
Definition mb_factored_width (md : mode) (b : merkle_block) : outcome N :=
  u32_sub md (mb_width_limit b) (mb_cofactor b).

(** block.rs:700: [u5::with] panics for a path of 32 hashes *)
Definition mp_depth (p : merkle_proof) : outcome nat := u5_with (length (mp_path p)).
(** block.rs:703 *)
Definition mp_width_limit (p : merkle_proof) : outcome N :=
  d <- mp_depth p ;; Ret (width_of d).
(** block.rs:707 *)
Definition mp_factored_width (md : mode) (p : merkle_proof) : outcome N :=
  w <- mp_width_limit p ;; u32_sub md w (mp_cofactor p).
(** block.rs:721 *)
Definition mp_merkle_root (p : merkle_proof) : option bytes32 :=
  match mp_path p with [] => None | h :: _ => Some h end.
(** block.rs:693-695 *)
Definition mp_matches (p q : merkle_proof) : bool :=
  (mp_cofactor p =? mp_cofactor q)%N &&
  match mp_merkle_root p, mp_merkle_root q with
  | Some a, Some b => b32_eqb a b
  | None, None => true
  | _, _ => false
  end.

(** block.rs:255-269: the path loop; [i] is the enumeration index; returns the nodes
    pushed to [dir] and to [rev], each in the order of pushing. [u5::with(depth) + 1]
    cannot be reached with an index of 31 because of the check of the path length
    in [depth()], but is written out. *)
Fixpoint with_loop (path : list bytes32) (i : nat) (pos width_limit : N)
  : outcome (list tree_node * list tree_node) :=
  match path with
  | [] => Ret ([], [])
  | hash :: r =>
      d <- u5_with i ;;
      d1 <- u5_add d 1 ;;
      let node := ConcealedNode d1 hash in
      if (width_limit / 2 <=? pos)%N then
        ' (dir, rv) <- with_loop r (S i) (pos - width_limit / 2)%N (width_limit / 2)%N ;;
        Ret (node :: dir, rv)
      else
        ' (dir, rv) <- with_loop r (S i) pos (width_limit / 2)%N ;;
        Ret (dir, node :: rv)
  end.

(** block.rs:236-288 [MerkleBlock::with]. The conversion at 278 cannot fail (1..=32 nodes). *)
Definition block_with (proof : merkle_proof) (pid msg : bytes32)
  : outcome (result merkle_block invalid_proof) :=
  width_limit <- mp_width_limit proof ;;
  depth <- mp_depth proof ;;
  let pos := mp_pos proof in
  let expected := protocol_id_pos pid (mp_cofactor proof) depth in
  if negb (expected =? pos)%N then
    Ret (Err (InvalidProof pid expected pos width_limit))
  else
    ' (dir, rv) <- with_loop (mp_path proof) 0 pos width_limit ;;
    d <- u5_with (length (mp_path proof)) ;;
    Ret (Ok (MBlock (mp_method proof) d (mp_cofactor proof)
               (dir ++ [CommitmentLeaf pid msg] ++ rev rv) None)).

(** block.rs:604-609 *)
Fixpoint known_leaves (xs : list tree_node) : list (bytes32 * bytes32) :=
  match xs with
  | [] => []
  | ConcealedNode _ _ :: r => known_leaves r
  | CommitmentLeaf p m :: r => (p, m) :: known_leaves r
  end.
Definition known_protocol_ids (b : merkle_block) : list bytes32 :=
  map fst (known_leaves (mb_cross_section b)).

(** block.rs:612-626 (fails for more than 2^24 - 1 distinct ids) *)
Definition to_known_message_map (b : merkle_block) : outcome message_map :=
  let m := om_of_list b32_ltb (known_leaves (mb_cross_section b)) in
  if (N.of_nat (length m) <=? u24_max)%N then Ret m else Panic PExpect.

Section WithHash.
Context {H : Hasher}.

(** block.rs:99-104 *)
Definition tn_with (hash1 hash2 : bytes32) (depth : nat) (width : N) : tree_node :=
  ConcealedNode depth (mh_branches depth width hash1 hash2).

(** block.rs:117-125 *)
Definition tn_to_merkle_node (n : tree_node) : bytes32 :=
  match n with
  | ConcealedNode _ h => h
  | CommitmentLeaf p m => leaf_commit_id (Inhabited p m)
  end.

(** block.rs:202-228 [From<&MerkleTree>]; the conversion at 218 cannot fail. *)
Definition block_of_tree (t : merkle_tree) : merkle_block :=
  MBlock (mt_method t) (mt_depth t) (mt_cofactor t)
    (map (fun pos =>
            match om_get N.ltb pos (mt_map t) with
            | Some (p, m) => CommitmentLeaf p m
            | None => ConcealedNode (mt_depth t) (leaf_commit_id (Entropy (mt_entropy t) pos))
            end) (N_range (mt_width_limit t)))
    (Some (mt_entropy t)).

(** block.rs:327-343: conceal leaves not listed; new nodes, ids not found, count. *)
Fixpoint conceal_leaves (D : nat) (protocols : list bytes32) (xs : list tree_node)
    (not_found : list bytes32) (count : N) : list tree_node * list bytes32 * N :=
  match xs with
  | [] => ([], not_found, count)
  | ConcealedNode d h :: r =>
      let '(r', nf, c) := conceal_leaves D protocols r not_found count in
      (ConcealedNode d h :: r', nf, c)
  | CommitmentLeaf p m :: r =>
      if existsb (b32_eqb p) protocols then
        let '(r', nf, c) := conceal_leaves D protocols r (os_remove b32_ltb p not_found) count in
        (CommitmentLeaf p m :: r', nf, c)
      else
        let '(r', nf, c) := conceal_leaves D protocols r not_found (count + 1)%N in
        (ConcealedNode D (tn_to_merkle_node (CommitmentLeaf p m)) :: r', nf, c)
  end.

(** [2u32.pow(self.depth as u32 - d as u32)], block.rs:371-372, 374, 392, 404 *)
Definition node_span (md : mode) (D d : nat) : outcome N :=
  h <- u32_sub md (N.of_nat D) (N.of_nat d) ;; u32_pow2 md h.

(** block.rs:352-417: one pass over the cross-section. The list is the part of
    [cross_section] from index [pos] on; elements before [pos] are not looked at
    again within the pass and form the result in order. Returned: nodes, final offset,
    final count. [remove(pos + 1)] at 378 cannot fail: there are at least two elements. *)
Fixpoint conceal_pass (md : mode) (D : nat) (xs : list tree_node) (offset count : N)
  : outcome (list tree_node * N * N) :=
  match xs with
  | [] => Ret ([], offset, count)
  | n1 :: tl =>
      match n1 with
      | ConcealedNode depth1 hash1 =>
          match tl with
          | ConcealedNode depth2 hash2 :: tl2 =>
              if depth1 =? depth2 then
                (* 360-385 *)
                depth <- u5_sub depth1 1 ;;
                pow <- node_span md D depth ;;
                rem <- u32_rem offset pow ;;
                if negb (rem =? 0)%N then
                  s <- node_span md D depth1 ;;
                  offset' <- u32_add md offset s ;;
                  ' (r, o, c) <- conceal_pass md D tl offset' count ;;
                  Ret (n1 :: r, o, c)
                else
                  offset' <- u32_add md offset pow ;;
                  ' (r, o, c) <- conceal_pass md D tl2 offset' (count + 1)%N ;;
                  Ret (tn_with hash1 hash2 depth (width_of D) :: r, o, c)
              else
                (* 388-393 *)
                s <- node_span md D depth1 ;;
                offset' <- u32_add md offset s ;;
                ' (r, o, c) <- conceal_pass md D tl offset' count ;;
                Ret (n1 :: r, o, c)
          | [] =>
              (* 388-393 *)
              s <- node_span md D depth1 ;;
              offset' <- u32_add md offset s ;;
              Ret ([n1], offset', count)
          | CommitmentLeaf p2 m2 :: tl2 =>
              (* 400-407 *)
              s <- node_span md D depth1 ;;
              offset' <- u32_add md offset s ;;
              offset'' <- u32_add md offset' 1 ;;
              ' (r, o, c) <- conceal_pass md D tl2 offset'' count ;;
              Ret (n1 :: CommitmentLeaf p2 m2 :: r, o, c)
          end
      | CommitmentLeaf _ _ =>
          match tl with
          | CommitmentLeaf p2 m2 :: tl2 =>
              (* 395-398 *)
              offset' <- u32_add md offset 2 ;;
              ' (r, o, c) <- conceal_pass md D tl2 offset' count ;;
              Ret (n1 :: CommitmentLeaf p2 m2 :: r, o, c)
          | _ =>
              (* 409-414 *)
              offset' <- u32_add md offset 1 ;;
              ' (r, o, c) <- conceal_pass md D tl offset' count ;;
              Ret (n1 :: r, o, c)
          end
      end
  end.

(** block.rs:349-422: repeat until a pass aggregates nothing. Each other pass removes at
    least one element, so [length + 1] units of fuel suffice (BlockProofs.v). *)
Fixpoint conceal_loop (fuel : nat) (md : mode) (D : nat) (xs : list tree_node) (count : N)
  : outcome (list tree_node * N) :=
  match fuel with
  | O => Panic PFuel
  | S fuel' =>
      debug_assert md (negb (match xs with [] => true | _ => false end)) ;;;
      ' (xs', offset, count') <- conceal_pass md D xs 0 count ;;
      if (count' =? count)%N then Ret (xs', count')
      else
        debug_assert md (offset =? width_of D)%N ;;;
        conceal_loop fuel' md D xs' count'
  end.

Definition with_cross_section (b : merkle_block) (xs : list tree_node) (e : option N) : merkle_block :=
  MBlock (mb_method b) (mb_depth b) (mb_cofactor b) xs e.

(** block.rs:315-425 [conceal_except]: the block after the call and the returned result. *)
Definition conceal_except (md : mode) (b : merkle_block) (protocols : list bytes32)
  : outcome (merkle_block * result N bytes32) :=
  let not_found := os_of_list b32_ltb protocols in
  let '(xs, nf, count) :=
    conceal_leaves (mb_depth b) protocols (mb_cross_section b) not_found 0 in
  match nf with
  | p :: _ => Ret (with_cross_section b xs None, Err p)
  | [] =>
      ' (xs', count') <- conceal_loop (S (length xs)) md (mb_depth b) xs count ;;
      Ret (with_cross_section b xs' None, Ok count')
  end.

(** block.rs:298-301 *)
Definition conceal_other (md : mode) (b : merkle_block) (protocol : bytes32)
  : outcome (merkle_block * result unit bytes32) :=
  ' (b', r) <- conceal_except md b [protocol] ;;
  Ret (b', match r with Ok _ => Ok tt | Err p => Err p end).

(** block.rs:645-663 [<MerkleBlock as Conceal>::conceal] *)
Definition block_conceal (md : mode) (b : merkle_block) : outcome merkle_concealed :=
  ' (c, r) <- conceal_except md b [] ;;
  match r with
  | Err _ => Panic PExpect
  | Ok _ =>
      debug_assert md (length (mb_cross_section c) =? 1) ;;;
      match mb_cross_section c with
      | ConcealedNode 0 hash :: _ => Ret (MConcealed (mb_depth b) (mb_cofactor b) hash)
      | _ => Panic PUnreachable
      end
  end.

(** block.rs:131-132 (strategy = strict, id = Commitment) *)
Definition concealed_commit_id (c : merkle_concealed) : bytes32 :=
  tagged commitment_tag (enc c_merkle_concealed c).

(** block.rs:156-157 (strategy = conceal, id = Commitment): the strict encoding of the
    concealed value is hashed (derive/src/derive.rs, see Engine.v). *)
Definition block_commit_id (md : mode) (b : merkle_block) : outcome bytes32 :=
  c <- block_conceal md b ;; Ret (concealed_commit_id c).

(** tree.rs:85-89 and 45-46 *)
Definition tree_conceal (md : mode) (t : merkle_tree) : outcome merkle_concealed :=
  block_conceal md (block_of_tree t).
Definition tree_commit_id (md : mode) (t : merkle_tree) : outcome bytes32 :=
  c <- tree_conceal md t ;; Ret (concealed_commit_id c).

(** block.rs:198-200, tree.rs:67-69 *)
Definition mb_matches (md : mode) (a b : merkle_block) : outcome bool :=
  x <- block_commit_id md a ;; y <- block_commit_id md b ;; Ret (b32_eqb x y).
Definition mt_matches (md : mode) (a b : merkle_tree) : outcome bool :=
  x <- tree_commit_id md a ;; y <- tree_commit_id md b ;; Ret (b32_eqb x y).

(** block.rs:490-500, 508-518: [by_ref().take_while(...)] with the [stop] flag; nodes
    appended to the result, and what the iterator still holds, the rejected node
    ([last_a]/[last_b]) first. *)
Fixpoint merge_take (D : nat) (target : nat) (stop : bool) (bu : buoy) (rest : list tree_node)
  : list tree_node * list tree_node :=
  match rest with
  | [] => ([], [])
  | n :: r =>
      if stop then ([], n :: r)
      else
        let bu' := snd (buoy_push bu (tn_depth_or n D)) in
        let '(t, r') := merge_take D target (buoy_level bu' <=? target) bu' r in
        (n :: t, r')
  end.

(** block.rs:458-524. Each list is [last_x] followed by what its iterator still holds; an
    empty list stands for [last_x = None], which happens only when the iterator is
    exhausted. When one side ends, the pending [last_x] of the other is dropped (523-524). The
    head of both lists is consumed by each iteration, so [length la + 1] units of fuel suffice. *)
Fixpoint merge_loop (fuel : nat) (D : nat) (la lb : list tree_node) : outcome (list tree_node) :=
  match fuel with
  | O => Panic PFuel
  | S fuel' =>
      match la, lb with
      | n1 :: ra, n2 :: rb =>
          let d1 := tn_depth_or n1 D in
          let d2 := tn_depth_or n2 D in
          match Nat.compare d1 d2 with
          | Datatypes.Eq =>
              if tree_node_eqb n1 n2 then
                r <- merge_loop fuel' D ra rb ;; Ret (n1 :: r)
              else
                match tn_is_leaf n1, tn_is_leaf n2 with
                | true, false => r <- merge_loop fuel' D ra rb ;; Ret (n1 :: r)
                | false, true => r <- merge_loop fuel' D ra rb ;; Ret (n2 :: r)
                | false, false => merge_loop fuel' D ra rb
                | true, true => Panic PUnreachable
                end
          | Datatypes.Lt =>
              let '(t, lb') := merge_take D d1 false (buoy_new d2) rb in
              r <- merge_loop fuel' D ra lb' ;; Ret (n2 :: t ++ r)
          | Datatypes.Gt =>
              let '(t, la') := merge_take D d2 false (buoy_new d1) ra in
              r <- merge_loop fuel' D la' rb ;; Ret (n1 :: t ++ r)
          end
      | _, _ => Ret (tl la ++ tl lb)
      end
  end.

(** block.rs:530-534: u8 subtraction, 2u32.pow, and u32 sum *)
Definition u8_sub (md : mode) (a b : nat) : outcome nat :=
  if b <=? a then Ret (a - b)
  else match md with Debug => Panic PArith | Release => Ret (a + 256 - b) end.
Fixpoint span_sum (md : mode) (D : nat) (xs : list tree_node) (acc : N) : outcome N :=
  match xs with
  | [] => Ret acc
  | n :: r =>
      h <- u8_sub md D (tn_depth_or n D) ;;
      p <- u32_pow2 md (N.of_nat h) ;;
      acc' <- u32_add md acc p ;;
      span_sum md D r acc'
  end.

(** block.rs:442-553 [merge_reveal]: the block after the call and the returned result. *)
Definition merge_reveal (md : mode) (self other : merkle_block)
  : outcome (merkle_block * result N merge_error) :=
  base_root <- block_commit_id md self ;;
  merged_root <- block_commit_id md other ;;
  if negb (b32_eqb base_root merged_root) then
    Ret (self, Err (UnrelatedBlocks base_root merged_root))
  else
    xs <- merge_loop (S (length (mb_cross_section self))) (mb_depth self)
            (mb_cross_section self) (mb_cross_section other) ;;
    match xs with
    | [] => Panic PExpect
    | _ =>
        assert (N.of_nat (length xs) <? u32_lim)%N ;;;
        let self' := with_cross_section self xs (mb_entropy self) in
        sum <- span_sum md (mb_depth self) xs 0 ;;
        assert (sum =? mb_width_limit self)%N ;;;
        new_root <- block_commit_id md self' ;;
        assert (b32_eqb base_root new_root) ;;;
        Ret (self', Ok (N.of_nat (length xs) mod 2 ^ 16)%N)
    end.

(** block.rs:430-438 *)
Definition merge_reveal_path (md : mode) (self : merkle_block) (proof : merkle_proof)
    (pid msg : bytes32) : outcome (merkle_block * result N merge_error) :=
  r <- block_with proof pid msg ;;
  match r with
  | Err e => Ret (self, Err (MInvalidProof e))
  | Ok block => merge_reveal md self block
  end.

(** block.rs:562-571 *)
Fixpoint path_map (md : mode) (xs : list tree_node) (m : list (nat * bytes32))
  : outcome (list (nat * bytes32)) :=
  match xs with
  | [] => Ret m
  | ConcealedNode d h :: r =>
      let '(old, m') := om_insert Nat.ltb d h m in
      debug_assert md (match old with None => true | Some _ => false end) ;;;
      path_map md r m'
  | CommitmentLeaf _ _ :: r => path_map md r m
  end.

(** block.rs:557-590 [into_merkle_proof], [to_merkle_proof] *)
Definition to_merkle_proof (md : mode) (b : merkle_block) (pid : bytes32)
  : outcome (result merkle_proof bytes32) :=
  ' (c, r) <- conceal_other md b pid ;;
  match r with
  | Err p => Ret (Err p)
  | Ok _ =>
      m <- path_map md (mb_cross_section c) [] ;;
      debug_assert md (mb_depth c =? length m) ;;;
      if length m <=? 32 then
        Ret (Ok (MProof (mb_method c) (mb_protocol_id_pos c pid) (mb_cofactor c) (map snd m)))
      else Panic PExpect
  end.

(** block.rs:725-732 *)
Definition convolve (md : mode) (p : merkle_proof) (pid msg : bytes32)
  : outcome (result bytes32 invalid_proof) :=
  r <- block_with p pid msg ;;
  match r with
  | Err e => Ret (Err e)
  | Ok block => c <- block_commit_id md block ;; Ret (Ok c)
  end.

(** block.rs:628-638: the lazily mapped iterator, run to the end. *)
Fixpoint known_proofs (md : mode) (b : merkle_block) (ids : list bytes32)
  : outcome (list (bytes32 * merkle_proof)) :=
  match ids with
  | [] => Ret []
  | id :: r =>
      p <- to_merkle_proof md b id ;;
      match p with
      | Err _ => Panic PExpect
      | Ok proof => ps <- known_proofs md b r ;; Ret ((id, proof) :: ps)
      end
  end.
Definition into_known_proofs (md : mode) (b : merkle_block) : outcome (list (bytes32 * merkle_proof)) :=
  known_proofs md b (known_protocol_ids b).
(** tree.rs:210-213 *)
Definition into_proofs (md : mode) (t : merkle_tree) : outcome (list (bytes32 * merkle_proof)) :=
  into_known_proofs md (block_of_tree t).

End WithHash.
