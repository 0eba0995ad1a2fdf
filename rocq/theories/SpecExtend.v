(** Specification: extending hashed strings without knowing them. *)
From Verif Require Import Base Sha256 SpecHash SpecSha.
Local Open Scope nat_scope.

(** [d'] is computed from the digest [d] of some string, which has [n] bytes together with its padding, and from [s]:
    hashing is resumed in the state given by the digest and goes on with [s] and the padding. *)
Definition resumes (d : list byte) (n : nat) (s d' : list byte) : Prop :=
  exists st0 z q bs calls st1,
    digest_of st0 = d /\ Forall (fun w => (w < 2 ^ 32)%N) [sa st0; sb st0; sc st0; sd st0; se st0; sf st0; sg st0; sh st0] /\
    q = s ++ x80 :: repeat x00 z ++ s_be 8 (8 * N.of_nat (n + length s)) /\ z < 64 /\ Nat.divide 64 (length q) /\
    blocks_of q bs /\ chain st0 bs calls st1 /\ d' = digest_of st1.

(** The strings which are hashed for multi-protocol commitments *)
Inductive mpc_string {H : Hasher} : list byte -> Prop :=
| mpc_node_tag : mpc_string s_node_tag
| mpc_commit_tag : mpc_string s_commit_tag
| mpc_leaf p m : mpc_string (s_leaf p m)
| mpc_entropy e pos : mpc_string (s_entropy e pos)
| mpc_branch d w a b : mpc_string (s_branch d w a b)
| mpc_single d w a : mpc_string (s_single d w a)
| mpc_void d w : mpc_string (s_void d w)
| mpc_commit d c r : mpc_string (s_commit d c r).
