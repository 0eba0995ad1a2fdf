(** commit_verify/src/merkle.rs *)
From Verif Require Import Base OrdMap Strict.

Section Merkle.
Context {H : Hasher}.

(** digest.rs:43-58 [DigestExt::from_tag] followed by [input_raw] and [finish]; the
    engine in between (id.rs:278-287) is modelled in [Engine.v]. *)
Definition tagged (tag data : list byte) : bytes32 :=
  HASH (b32 (HASH tag) ++ b32 (HASH tag) ++ data).

(** merkle.rs:116-118 [MerkleHash::TAG] *)
Definition merkle_tag : list byte := str "urn:ubideco:merkle:node#2024-01-31".

(** merkle.rs:39-51 *)
Inductive branching : Set := Void | Single | Branch.

(** merkle.rs:58-64. [depth]: u8, [width]: u256. *)
Record merkle_node : Set := MNode {
  mn_branching : branching;
  mn_depth : N;
  mn_width : N;
  mn_node1 : bytes32;
  mn_node2 : bytes32
}.

(** merkle.rs:36-38 (tags = repr) *)
Definition c_branching : codec branching :=
  c_part c_byte
    (fun b => match b with x00 => Some Void | x01 => Some Single | x02 => Some Branch | _ => None end)
    (fun b => match b with Void => x00 | Single => x01 | Branch => x02 end).

(** merkle.rs:53-64 derived StrictEncode/StrictDecode *)
Definition c_merkle_node : codec merkle_node :=
  c_iso (c_pair c_branching (c_pair (c_le 1) (c_pair (c_le 32) (c_pair c_b32 c_b32))))
    (fun '(b, (d, (w, (n1, n2)))) => MNode b d w n1 n2)
    (fun n => (mn_branching n, (mn_depth n, (mn_width n, (mn_node1 n, mn_node2 n))))).

(** merkle.rs:56-57 CommitEncode (strategy = strict, id = MerkleHash) and id.rs:286 *)
Definition node_commit_id (n : merkle_node) : bytes32 := tagged merkle_tag (enc c_merkle_node n).

(** merkle.rs:124 *)
Definition virtual_leaf : bytes32 := b32_fill xff.

(** merkle.rs:67-99, 127-142. depth: u5 (converted into u8), width: u32 (into u256). *)
Definition node_void (depth : nat) (width : N) : merkle_node :=
  MNode Void (N.of_nat depth) width virtual_leaf virtual_leaf.
Definition node_single (depth : nat) (width : N) (n : bytes32) : merkle_node :=
  MNode Single (N.of_nat depth) width n virtual_leaf.
Definition node_branches (depth : nat) (width : N) (n1 n2 : bytes32) : merkle_node :=
  MNode Branch (N.of_nat depth) width n1 n2.
Definition mh_void (depth : nat) (width : N) : bytes32 := node_commit_id (node_void depth width).
Definition mh_single (depth : nat) (width : N) (n : bytes32) : bytes32 :=
  node_commit_id (node_single depth width n).
Definition mh_branches (depth : nat) (width : N) (n1 n2 : bytes32) : bytes32 :=
  node_commit_id (node_branches depth width n1 n2).

(** merkle.rs:162-195 [_merklize]. The iterator is the list of ids still to be taken.
    [depth + 1] panics beyond 31, which bounds the recursion: with 33 units of fuel
    the out-of-fuel case is unreachable (MerkleProofs.v). [branch_width - div] cannot
    underflow. *)
Fixpoint merklize_rec (fuel : nat) (iter : list bytes32) (depth : nat)
    (branch_width base_width : N) : outcome bytes32 :=
  match fuel with
  | O => Panic PFuel
  | S fuel' =>
      if (branch_width <=? 2)%N then
        match iter with
        | [] => Ret (mh_void depth base_width)
        | [b] => Ret (mh_single depth base_width b)
        | b1 :: b2 :: _ => Ret (mh_branches depth base_width b1 b2)
        end
      else
        let div := (branch_width / 2 + branch_width mod 2)%N in
        let slice := firstn (N.to_nat div) iter in
        let rest := skipn (N.to_nat div) iter in
        d1 <- u5_add depth 1 ;;
        b1 <- merklize_rec fuel' slice d1 div base_width ;;
        d2 <- u5_add depth 1 ;;
        b2 <- merklize_rec fuel' rest d2 (branch_width - div)%N base_width ;;
        Ret (mh_branches depth base_width b1 b2)
  end.

(** merkle.rs:150-160 [MerkleHash::merklize]; the argument is the list of
    [leaf.commit_id()] of the collection's leaves in iteration order. *)
Definition merklize (nodes : list bytes32) : outcome bytes32 :=
  let n := N.of_nat (length nodes) in
  if (n <? u32_lim)%N then
    if (n =? 1)%N then
      match nodes with b :: _ => Ret b | [] => Panic PExpect end
    else merklize_rec 33 nodes 0 n n
  else Panic PExpect.

(** merkle.rs:197-243 [MerkleLeaves]: the leaves of a [Confined] Vec are its elements in order, those of a
    [Confined] BTreeSet in the order of the element type; [set_of] is the set obtained by inserting
    the elements of a list. The six impls differ only in the maximal length. *)
Definition vec_leaves {T} (v : list T) : list T := v.
Definition set_of {T} (ltb : T -> T -> bool) (l : list T) : list T := os_of_list ltb l.
Definition set_leaves {T} (s : list T) : list T := s.
(** merkle.rs:150-160 applied to a collection with the given leaves *)
Definition merklize_leaves {T} (id : T -> bytes32) (leaves : list T) : outcome bytes32 :=
  merklize (map id leaves).

End Merkle.

(** ** merkle.rs:245-299 [MerkleBuoy<u5>] *)
Inductive buoy : Set := Buoy (b : nat) (stack : option buoy).

(** merkle.rs:253-258 *)
Definition buoy_new (top : nat) : buoy := Buoy top None.

(** merkle.rs:261-267 *)
Fixpoint buoy_level (x : buoy) : nat :=
  match x with
  | Buoy b None => b
  | Buoy _ (Some s) => buoy_level s
  end.

(** merkle.rs:275-298 [push] on a buoy without a stack: lines 276, 284-291. The
    decrement cannot underflow since [depth], equal to [b], is not zero. *)
Definition buoy_push_flat (b depth : nat) : bool * buoy :=
  if depth =? 0 then (false, Buoy b None)
  else if depth =? b then (true, Buoy (b - 1) None)
  else (false, Buoy b (Some (buoy_new depth))).

(** merkle.rs:275-298 [push]; returns whether the buoy surfaced, and the new state. The
    recursive call of line 294 is on a buoy whose stack was just removed. *)
Fixpoint buoy_push (x : buoy) (depth : nat) : bool * buoy :=
  if depth =? 0 then (false, x)
  else match x with
       | Buoy b None => buoy_push_flat b depth
       | Buoy b (Some s) =>
           let '(surfaced, s') := buoy_push s depth in
           if surfaced then buoy_push_flat b (buoy_level s')
           else (false, Buoy b (Some s'))
       end.
