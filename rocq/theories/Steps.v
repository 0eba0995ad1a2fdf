(** The search of [MerkleTree::try_commit] with two counters: attempts (pairs of a depth and a cofactor for which
    the messages are laid out) and computed positions. *)
From Verif Require Import Base OrdMap Strict Merkle MpcAtoms MpcTree.
Local Open Scope nat_scope.

(** tree.rs:157-160 [all]: the answer, the map and the number of calls of [protocol_id_pos] *)
Fixpoint counted_all (msgs : message_map) (cofactor : N) (depth : nat) (map : ordered_map) (positions : N)
  : bool * ordered_map * N :=
  match msgs with
  | [] => (true, map, positions)
  | (protocol, message) :: r =>
      let '(old, map') := om_insert N.ltb (protocol_id_pos protocol cofactor depth) (protocol, message) map in
      match old with
      | None => counted_all r cofactor depth map' (positions + 1)%N
      | Some _ => (false, map', (positions + 1)%N)
      end
  end.

(** tree.rs:155-170; [n] cofactors are left, the next one is [cofactor]; every round clears the map (156) and is
    one attempt *)
Fixpoint counted_attempts (n : nat) (cofactor : N) (msgs : message_map) (depth : nat) (attempts positions : N)
  : option (N * ordered_map) * N * N :=
  match n with
  | O => (None, attempts, positions)
  | S n' =>
      let '(fits, map, positions) := counted_all msgs cofactor depth [] positions in
      if fits : bool then (Some (cofactor, map), (attempts + 1)%N, positions)
      else counted_attempts n' (cofactor + 1)%N msgs depth (attempts + 1)%N positions
  end.

(** tree.rs:152-177 *)
Fixpoint counted_search (fuel : nat) (msgs : message_map) (depth : nat) (prev_width attempts positions : N)
  : outcome (result (nat * N * ordered_map) commit_error * N * N) :=
  match fuel with
  | O => Panic PFuel
  | S fuel' =>
      let width_limit := width_of depth in
      let '(found, attempts, positions) :=
        if (N.of_nat (length msgs) <=? width_limit)%N then
          counted_attempts (S (N.to_nat (N.min prev_width 500 mod 2 ^ 16))) 0 msgs depth attempts positions
        else (None, attempts, positions) in
      match found with
      | Some (cofactor, map) => Ret (Ok (depth, cofactor, map), attempts, positions)
      | None =>
          match u5_checked_add depth 1 with
          | None => Ret (Err (CantFitInMaxSlots (length msgs)), attempts, positions)
          | Some depth' => counted_search fuel' msgs depth' width_limit attempts positions
          end
      end
  end.

(** tree.rs:125-178: the result and the two counts *)
Definition counted_commit (source : multi_source) (rng : option N)
  : outcome (result merkle_tree commit_error * N * N) :=
  let msgs := ms_messages source in
  let msg_count := length msgs in
  if (ms_min_depth source =? 0) && (msg_count =? 0) then Ret (Err Empty, 0%N, 0%N)
  else if (2 ^ 31 <? N.of_nat msg_count)%N then Ret (Err (TooManyMessages msg_count), 0%N, 0%N)
  else
    entropy <- match ms_static_entropy source with
               | Some e => Ret e
               | None => match rng with Some e => Ret e | None => Panic PExpect end
               end ;;
    r <- counted_search 32 msgs (ms_min_depth source) 1 0 0 ;;
    let '(found, attempts, positions) := r in
    match found with
    | Err e => Ret (Err e, attempts, positions)
    | Ok (depth, cofactor, map) =>
        Ret (Ok (MTree (ms_method source) depth entropy cofactor msgs map), attempts, positions)
    end.
