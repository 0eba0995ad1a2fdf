(** A second transcription of the loops in block.rs, tree.rs and merkle.rs, statement by statement: vectors are indexed
    and changed in place, maps and iterators are mutated, loops test their conditions. Nothing here uses the loops of
    the other model files. Each loop has fuel; running out of it is [Panic PFuel]. [usize] arithmetic on indices is not
    bounded (vectors have less than 2^32 elements). *)
From Verif Require Import Base OrdMap Strict Merkle MpcAtoms MpcTree MpcBlock.
Local Open Scope nat_scope.

(** ** Vectors *)

(** [v[i]] *)
Definition vec_index {A} (v : list A) (i : nat) : outcome A :=
  match nth_error v i with Some a => Ret a | None => Panic PIndex end.
(** [v[i] = a] *)
Definition vec_set {A} (v : list A) (i : nat) (a : A) : outcome (list A) :=
  if i <? length v then Ret (firstn i v ++ a :: skipn (S i) v) else Panic PIndex.
(** [Confined<Vec<A>, 1, MAX>::remove(i).expect(..)]: an error if there is at most one
    element or none at [i] (amplify) *)
Definition vec_remove {A} (v : list A) (i : nat) : outcome (list A) :=
  if length v <=? 1 then Panic PExpect
  else if length v <=? i then Panic PExpect
  else Ret (firstn i v ++ skipn (S i) v).

(** ** merkle.rs:275-298 [MerkleBuoy::push], with the call of line 294 made on the changed buoy *)
Fixpoint lit_push (fuel : nat) (self : buoy) (depth : nat) : outcome (bool * buoy) :=
  match fuel with
  | O => Panic PFuel
  | S fuel' =>
      if depth =? 0 then Ret (false, self)
      else
        let '(Buoy b stack) := self in
        match stack with
        | None =>
            if depth =? b then b' <- u5_sub b 1 ;; Ret (true, Buoy b' None)
            else Ret (false, Buoy b (Some (Buoy depth None)))
        | Some s =>
            ' (surfaced, s') <- lit_push fuel' s depth ;;
            let level := buoy_level s' in
            if surfaced : bool then lit_push fuel' (Buoy b None) level
            else Ret (false, Buoy b (Some s'))
        end
  end.
(** Buoys in stacks, counted *)
Fixpoint buoy_size (x : buoy) : nat := match x with Buoy _ None => 1 | Buoy _ (Some s) => S (buoy_size s) end.

(** ** block.rs:255-269: the loop of [with], pushing to [dir] and [rev] *)
Fixpoint lit_with (path : list bytes32) (depth : nat) (pos width_limit : N) (dir rv : list tree_node)
  : outcome (list tree_node * list tree_node) :=
  match path with
  | [] => Ret (dir, rv)
  | hash :: r =>
      let right := (width_limit / 2 <=? pos)%N in
      let pos' := if right then (pos - width_limit / 2)%N else pos in
      d <- u5_with depth ;;
      d1 <- u5_add d 1 ;;
      let node := ConcealedNode d1 hash in
      lit_with r (S depth) pos' (width_limit / 2)%N
        (if right then dir ++ [node] else dir) (if right then rv else rv ++ [node])
  end.

(** ** tree.rs:150-177: one map, cleared before every attempt *)

(** tree.rs:157-160 [all]: the answer and the map afterwards *)
Fixpoint lit_all (msgs : message_map) (cofactor : N) (depth : nat) (map : ordered_map) : bool * ordered_map :=
  match msgs with
  | [] => (true, map)
  | (protocol, message) :: r =>
      let '(old, map') := om_insert N.ltb (protocol_id_pos protocol cofactor depth) (protocol, message) map in
      match old with None => lit_all r cofactor depth map' | Some _ => (false, map') end
  end.
(** tree.rs:155-170; [n] cofactors are left, the next one is [cofactor] *)
Fixpoint lit_attempts (n : nat) (cofactor : N) (msgs : message_map) (depth : nat) (map : ordered_map)
  : option N * ordered_map :=
  match n with
  | O => (None, map)
  | S n' =>
      let map := [] in
      let '(fits, map) := lit_all msgs cofactor depth map in
      if fits : bool then (Some cofactor, map) else lit_attempts n' (cofactor + 1)%N msgs depth map
  end.
(** tree.rs:152-177 *)
Fixpoint lit_search (fuel : nat) (msgs : message_map) (map : ordered_map) (depth : nat) (prev_width : N)
  : outcome (result (nat * N * ordered_map) commit_error) :=
  match fuel with
  | O => Panic PFuel
  | S fuel' =>
      let width_limit := width_of depth in
      let '(found, map) :=
        if (N.of_nat (length msgs) <=? width_limit)%N then
          lit_attempts (S (N.to_nat (N.min prev_width 500 mod 2 ^ 16))) 0 msgs depth map
        else (None, map) in
      match found with
      | Some cofactor => Ret (Ok (depth, cofactor, map))
      | None =>
          match u5_checked_add depth 1 with
          | None => Ret (Err (CantFitInMaxSlots (length msgs)))
          | Some depth' => lit_search fuel' msgs map depth' width_limit
          end
      end
  end.

Section WithHash.
Context {H : Hasher}.

(** ** block.rs:315-425 [conceal_except] *)

(** block.rs:327-343: [i] is the place of the iterator *)
Fixpoint lit_leaves (fuel : nat) (D : nat) (protocols : list bytes32) (cs : list tree_node) (i : nat)
    (not_found : list bytes32) (count : N) : outcome (list tree_node * list bytes32 * N) :=
  match fuel with
  | O => Panic PFuel
  | S fuel' =>
      if i <? length cs then
        node <- vec_index cs i ;;
        match node with
        | ConcealedNode _ _ => lit_leaves fuel' D protocols cs (S i) not_found count
        | CommitmentLeaf p _ =>
            if existsb (b32_eqb p) protocols then
              lit_leaves fuel' D protocols cs (S i) (os_remove b32_ltb p not_found) count
            else
              cs' <- vec_set cs i (ConcealedNode D (tn_to_merkle_node node)) ;;
              lit_leaves fuel' D protocols cs' (S i) not_found (count + 1)%N
        end
      else Ret (cs, not_found, count)
  end.

(** block.rs:371-372, 374, 392, 404: [2u32.pow(self.depth - depth)] *)
Definition lit_span (md : mode) (D d : nat) : outcome N :=
  h <- u32_sub md (N.of_nat D) (N.of_nat d) ;; u32_pow2 md h.

(** block.rs:355-417: [while pos < len] *)
Fixpoint lit_pass (fuel : nat) (md : mode) (D : nat) (cs : list tree_node) (offset : N) (pos len : nat) (count : N)
  : outcome (list tree_node * N * N) :=
  match fuel with
  | O => Panic PFuel
  | S fuel' =>
      if pos <? len then
        n1 <- vec_index cs pos ;;
        let n2 := nth_error cs (pos + 1) in
        match n1, n2 with
        | ConcealedNode depth1 hash1, Some (ConcealedNode depth2 hash2) =>
            if depth1 =? depth2 then
              depth <- u5_sub depth1 1 ;;
              height <- u32_sub md (N.of_nat D) (N.of_nat depth) ;;
              pow <- u32_pow2 md height ;;
              rem <- u32_rem offset pow ;;
              if negb (rem =? 0)%N then
                s <- lit_span md D depth1 ;;
                offset <- u32_add md offset s ;;
                lit_pass fuel' md D cs offset (pos + 1) len count
              else
                cs <- vec_set cs pos (tn_with hash1 hash2 depth (width_of D)) ;;
                cs <- vec_remove cs (pos + 1) ;;
                offset <- u32_add md offset pow ;;
                lit_pass fuel' md D cs offset (pos + 1) (len - 1) (count + 1)%N
            else
              s <- lit_span md D depth1 ;;
              offset <- u32_add md offset s ;;
              lit_pass fuel' md D cs offset (pos + 1) len count
        | ConcealedNode depth _, None =>
            s <- lit_span md D depth ;;
            offset <- u32_add md offset s ;;
            lit_pass fuel' md D cs offset (pos + 1) len count
        | CommitmentLeaf _ _, Some (CommitmentLeaf _ _) =>
            offset <- u32_add md offset 2 ;;
            lit_pass fuel' md D cs offset (pos + 1 + 1) len count
        | ConcealedNode depth _, Some (CommitmentLeaf _ _) =>
            s <- lit_span md D depth ;;
            offset <- u32_add md offset s ;;
            offset <- u32_add md offset 1 ;;
            lit_pass fuel' md D cs offset (pos + 1 + 1) len count
        | CommitmentLeaf _ _, (Some (ConcealedNode _ _) | None) =>
            offset <- u32_add md offset 1 ;;
            lit_pass fuel' md D cs offset (pos + 1) len count
        end
      else Ret (cs, offset, count)
  end.

(** block.rs:349-422: [loop] *)
Fixpoint lit_loop (fuel : nat) (md : mode) (D : nat) (cs : list tree_node) (count : N) : outcome (list tree_node * N) :=
  match fuel with
  | O => Panic PFuel
  | S fuel' =>
      debug_assert md (negb (length cs =? 0)) ;;;
      let prev_count := count in
      ' (cs, offset, count) <- lit_pass (S (length cs)) md D cs 0 0 (length cs) count ;;
      if (count =? prev_count)%N then Ret (cs, count)
      else
        debug_assert md (offset =? width_of D)%N ;;;
        lit_loop fuel' md D cs count
  end.

(** block.rs:315-425 *)
Definition lit_conceal_except (md : mode) (self : merkle_block) (protocols : list bytes32)
  : outcome (merkle_block * result N bytes32) :=
  let not_found := os_of_list b32_ltb protocols in
  let entropy := None in
  let cs := mb_cross_section self in
  ' (cs, not_found, count) <- lit_leaves (S (length cs)) (mb_depth self) protocols cs 0 not_found 0 ;;
  match nth_error not_found 0 with
  | Some p => Ret (MBlock (mb_method self) (mb_depth self) (mb_cofactor self) cs entropy, Err p)
  | None =>
      ' (cs, count) <- lit_loop (S (length cs)) md (mb_depth self) cs count ;;
      Ret (MBlock (mb_method self) (mb_depth self) (mb_cofactor self) cs entropy, Ok count)
  end.

(** ** block.rs:452-524: the loop of [merge_reveal] *)

(** block.rs:490-500, 508-518 [take_while] on a borrowed iterator, run by [extend]: what is appended to the section, the
    node stored by the closure ([last_a], [last_b]), the iterator afterwards (it has lost the rejected node). *)
Fixpoint lit_take_while (D : nat) (limit : nat) (stop : bool) (bu : buoy) (iter section : list tree_node)
    (last : option tree_node) : outcome (list tree_node * option tree_node * list tree_node) :=
  match iter with
  | [] => Ret (section, last, [])
  | n :: iter' =>
      if stop then Ret (section, Some n, iter')
      else
        ' (_, bu') <- lit_push (buoy_size bu) bu (tn_depth_or n D) ;;
        lit_take_while D limit (buoy_level bu' <=? limit) bu' iter' (section ++ [n]) last
  end.

(** [Iterator::next] *)
Definition lit_next {A} (iter : list A) : option A * list A :=
  match iter with [] => (None, []) | a :: r => (Some a, r) end.

(** block.rs:459-522: [while let] *)
Fixpoint lit_merge (fuel : nat) (D : nat) (section : list tree_node) (last_a last_b : option tree_node)
    (a b : list tree_node) : outcome (list tree_node) :=
  match fuel with
  | O => Panic PFuel
  | S fuel' =>
      match last_a, last_b with
      | Some n1, Some n2 =>
          let n1_depth := tn_depth_or n1 D in
          let n2_depth := tn_depth_or n2 D in
          if n1_depth =? n2_depth then
            let '(last_a', a') := lit_next a in
            let '(last_b', b') := lit_next b in
            if tree_node_eqb n1 n2 then lit_merge fuel' D (section ++ [n1]) last_a' last_b' a' b'
            else
              match tn_is_leaf n1, tn_is_leaf n2 with
              | true, false => lit_merge fuel' D (section ++ [n1]) last_a' last_b' a' b'
              | false, true => lit_merge fuel' D (section ++ [n2]) last_a' last_b' a' b'
              | false, false => lit_merge fuel' D section last_a' last_b' a' b'
              | true, true => Panic PUnreachable
              end
          else if n1_depth <? n2_depth then
            ' (section', last_b', b') <- lit_take_while D n1_depth false (Buoy n2_depth None) b (section ++ [n2]) None ;;
            let '(last_a', a') := lit_next a in
            lit_merge fuel' D section' last_a' last_b' a' b'
          else
            ' (section', last_a', a') <- lit_take_while D n2_depth false (Buoy n1_depth None) a (section ++ [n1]) None ;;
            let '(last_b', b') := lit_next b in
            lit_merge fuel' D section' last_a' last_b' a' b'
      | _, _ => Ret (section ++ a ++ b)
      end
  end.
(** block.rs:452-524 *)
Definition lit_merge_sections (D : nat) (sa sb : list tree_node) : outcome (list tree_node) :=
  let '(last_a, a) := lit_next sa in
  let '(last_b, b) := lit_next sb in
  lit_merge (S (length sa)) D [] last_a last_b a b.

End WithHash.
