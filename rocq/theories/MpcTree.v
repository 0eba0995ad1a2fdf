(** commit_verify/src/mpc/tree.rs (the commitment of a tree goes through
    MerkleBlock and is in [MpcBlock.v]). *)
From Verif Require Import Base OrdMap Strict Merkle MpcAtoms.

(** tree.rs:37 *)
Definition cofactor_attempts : N := 500.

(** tree.rs:39 [OrderedMap]: sorted by position. *)
Definition ordered_map : Set := list (N * (bytes32 * bytes32)).

(** tree.rs:47-65. depth: u5; entropy: u64; cofactor: u16. *)
Record merkle_tree : Set := MTree {
  mt_method : method;
  mt_depth : nat;
  mt_entropy : N;
  mt_cofactor : N;
  mt_messages : message_map;
  mt_map : ordered_map
}.

(** tree.rs:42-44 derived StrictEncode/StrictDecode *)
Definition c_merkle_tree : codec merkle_tree :=
  c_iso (c_pair c_method (c_pair c_u5 (c_pair (c_le 8) (c_pair (c_le 2)
          (c_pair (c_omap 3 0 u24_max b32_ltb c_b32 c_b32)
                  (c_omap 3 0 u24_max N.ltb (c_le 4) (c_pair c_b32 c_b32)))))))
    (fun '(m, (d, (e, (c, (ms, mp))))) => MTree m d e c ms mp)
    (fun t => (mt_method t, (mt_depth t, (mt_entropy t, (mt_cofactor t,
                (mt_messages t, mt_map t)))))).

(** 2u32.pow(depth) for a u5 depth: at most 2^31, no overflow. *)
Definition width_of (depth : nat) : N := (2 ^ N.of_nat depth)%N.

(** tree.rs:182-188. The debug assertion at 184 cannot fail for a u5 depth.
    [u256 % u256] has a non-zero divisor thanks to [max(1)]. *)
Definition protocol_id_pos (pid : bytes32) (cofactor : N) (depth : nat) : N :=
  let width := width_of depth in
  let rem := (N_of_b32 pid mod N.max (width - cofactor) 1)%N in
  ((rem mod 2 ^ 64) mod 2 ^ 32)%N.

(** tree.rs:104-116 *)
Inductive commit_error : Set :=
| Empty
| TooManyMessages (n : nat)
| CantFitInMaxSlots (n : nat).

(** tree.rs:157-160: [messages.iter().all(...)] inserting into [map]; stops at the first
    collision. [Some] of the complete map if all insertions found a vacant position. *)
Fixpoint place (msgs : message_map) (cofactor : N) (depth : nat) (map : ordered_map)
  : option ordered_map :=
  match msgs with
  | [] => Some map
  | (p, m) :: r =>
      let pos := protocol_id_pos p cofactor depth in
      match om_insert N.ltb pos (p, m) map with
      | (None, map') => place r cofactor depth map'
      | (Some _, _) => None
      end
  end.

(** tree.rs:155-170: the cofactors still to be tried at this depth. *)
Fixpoint try_cofactors (cofactors : list N) (msgs : message_map) (depth : nat)
  : option (N * ordered_map) :=
  match cofactors with
  | [] => None
  | c :: r =>
      match place msgs c depth [] with
      | Some map => Some (c, map)
      | None => try_cofactors r msgs depth
      end
  end.

(** 0..n as u32 values *)
Definition N_range (n : N) : list N := map N.of_nat (seq 0 (N.to_nat n)).

(** tree.rs:152-177: the search loop. [depth.checked_add(1)] fails beyond 31, which ends
    it; [fuel] counts the depths left and never runs out first (MpcTreeProofs.v). *)
Fixpoint commit_loop (fuel : nat) (msgs : message_map) (depth : nat) (prev_width : N)
  : outcome (result (nat * N * ordered_map) commit_error) :=
  match fuel with
  | O => Panic PFuel
  | S fuel' =>
      let width_limit := width_of depth in
      let attempt :=
        if (N.of_nat (length msgs) <=? width_limit)%N then
          try_cofactors (N_range (N.min prev_width cofactor_attempts + 1)) msgs depth
        else None in
      match attempt with
      | Some (c, map) => Ret (Ok (depth, c, map))
      | None =>
          match u5_checked_add depth 1 with
          | None => Ret (Err (CantFitInMaxSlots (length msgs)))
          | Some depth' => commit_loop fuel' msgs depth' width_limit
          end
      end
  end.

(** tree.rs:125-178 [MerkleTree::try_commit]. [rng]: the number [thread_rng().next_u64()]
    would return, or [None] when built without the [rand] feature. The conversion of [map]
    at 167 cannot fail: it has as many entries as [messages]. *)
Definition try_commit (source : multi_source) (rng : option N)
  : outcome (result merkle_tree commit_error) :=
  let msgs := ms_messages source in
  let msg_count := length msgs in
  if (ms_min_depth source =? 0) && (msg_count =? 0) then Ret (Err Empty)
  else if (2 ^ 31 <? N.of_nat msg_count)%N then Ret (Err (TooManyMessages msg_count))
  else
    entropy <- match ms_static_entropy source with
               | Some e => Ret e
               | None => match rng with Some e => Ret e | None => Panic PExpect end
               end ;;
    r <- commit_loop 32 msgs (ms_min_depth source) 1 ;;
    match r with
    | Err e => Ret (Err e)
    | Ok (depth, cofactor, map) =>
        Ret (Ok (MTree (ms_method source) depth entropy cofactor msgs map))
    end.

(** tree.rs:198, 192-194 *)
Definition mt_width_limit (t : merkle_tree) : N := width_of (mt_depth t).
Definition mt_protocol_id_pos (t : merkle_tree) (p : bytes32) : N :=
  protocol_id_pos p (mt_cofactor t) (mt_depth t).
(** tree.rs:202 (u32 subtraction) *)
Definition mt_factored_width (md : mode) (t : merkle_tree) : outcome N :=
  u32_sub md (mt_width_limit t) (mt_cofactor t).

(** tree.rs:73-78: leaf at a position *)
Definition tree_leaf (t : merkle_tree) (pos : N) : leaf :=
  match om_get N.ltb pos (mt_map t) with
  | Some (p, m) => Inhabited p m
  | None => Entropy (mt_entropy t) pos
  end.

Section WithHash.
Context {H : Hasher}.

(** tree.rs:72-82 [MerkleTree::root]. The collection conversion at 79 and the debug
    assertion at 80 hold since the iterator has exactly width_limit <= 2^31 items. *)
Definition mt_root (t : merkle_tree) : outcome bytes32 :=
  merklize (map (fun pos => leaf_commit_id (tree_leaf t pos)) (N_range (mt_width_limit t))).

End WithHash.
