(** commit_verify/src/mpc/atoms.rs *)
From Verif Require Import Base Strict Merkle.

(** atoms.rs:39-42 *)
Inductive method : Set := Sha256t.
Definition c_method : codec method :=
  c_part c_byte (fun b => match b with x00 => Some Sha256t | _ => None end) (fun _ => x00).

(** atoms.rs:93-103. entropy: u64, pos: u32. *)
Inductive leaf : Set :=
| Inhabited (protocol message : bytes32)
| Entropy (entropy pos : N).

(** atoms.rs:88-103 (tags = custom, 0x10 and 0x11) *)
Definition c_leaf : codec leaf :=
  c_iso (c_sum x10 x11 (c_pair c_b32 c_b32) (c_pair (c_le 8) (c_le 4)))
    (fun s => match s with inl (p, m) => Inhabited p m | inr (e, i) => Entropy e i end)
    (fun l => match l with Inhabited p m => inl (p, m) | Entropy e i => inr (e, i) end).

(** atoms.rs:91-92 CommitEncode (strategy = strict, id = MerkleHash) *)
Definition leaf_commit_id {H : Hasher} (l : leaf) : bytes32 := tagged merkle_tag (enc c_leaf l).

(** atoms.rs:134-136 [Commitment::TAG] *)
Definition commitment_tag : list byte := str "urn:ubideco:mpc:commitment#2024-01-31".

(** atoms.rs:45 [MessageMap]: at most 2^24 - 1 entries, sorted by protocol id. *)
Definition message_map : Set := list (bytes32 * bytes32).
Definition u24_max : N := (2 ^ 24 - 1)%N.

(** atoms.rs:150-157 *)
Record multi_source : Set := MultiSource {
  ms_method : method;
  ms_min_depth : nat;
  ms_messages : message_map;
  ms_static_entropy : option N
}.

(** atoms.rs:31, 159-179 *)
Definition mpc_minimal_depth : nat := 3.
Definition multi_source_default : multi_source := MultiSource Sha256t mpc_minimal_depth [] None.
Definition multi_source_with_static_entropy (e : N) : multi_source :=
  MultiSource Sha256t mpc_minimal_depth [] (Some e).
