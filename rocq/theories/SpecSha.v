(** SHA-256 as FIPS 180-4 describes it on top of its compression function: padding,
    splitting into blocks, chaining.  Written with relations, independently of the
    functions [pad], [words] and [blocks] of [Sha256.v]; only [compress] and its state are shared. *)
From Verif Require Import Base Sha256.
Local Open Scope nat_scope.

(** Big-endian bytes of a number. *)
Definition s_be (k : nat) (v : N) : list byte := rev (le k v).

(** [p] is the message [x], a one bit, the fewest zero bits and the bit length on 64 bits. *)
Definition padded (x p : list byte) : Prop :=
  exists z, p = x ++ x80 :: repeat x00 z ++ s_be 8 (8 * N.of_nat (length x)) /\
    z < 64 /\ Nat.divide 64 (length p).

(** [bs] are the blocks of sixteen 32-bit words of which [p] consists. *)
Definition blocks_of (p : list byte) (bs : list (list N)) : Prop :=
  Forall (fun b => length b = 16) bs /\ Forall (Forall (fun w => (w < 2 ^ 32)%N)) bs /\
  p = concat (map (s_be 4) (concat bs)).

(** Chaining from [s] through the blocks to [s'], with the inputs of the compression function. *)
Inductive chain : st -> list (list N) -> list (st * list N) -> st -> Prop :=
| ch_nil s : chain s [] [] s
| ch_cons s b bs calls s' : chain (compress s b) bs calls s' -> chain s (b :: bs) ((s, b) :: calls) s'.

Definition digest_of (s : st) : list byte :=
  concat (map (s_be 4) [sa s; sb s; sc s; sd s; se s; sf s; sg s; sh s]).

(** Hashing [x] calls the compression function on [calls], giving the digest [d]. *)
Definition sha_run (x : list byte) (calls : list (st * list N)) (d : list byte) : Prop :=
  exists p bs s, padded x p /\ blocks_of p bs /\ chain iv bs calls s /\ d = digest_of s.

(** A proper input of the compression function: eight and sixteen 32-bit words. *)
Definition proper_input (c : st * list N) : Prop :=
  Forall (fun w => (w < 2 ^ 32)%N) [sa (fst c); sb (fst c); sc (fst c); sd (fst c); se (fst c); sf (fst c); sg (fst c); sh (fst c)] /\
  length (snd c) = 16 /\ Forall (fun w => (w < 2 ^ 32)%N) (snd c).

(** Two different proper inputs with the same output of the compression function, both used
    in hashing strings of [L]. *)
Definition compress_collision_in (L : list (list byte)) : Prop :=
  exists x cx dx y cy dy a b, In x L /\ In y L /\ sha_run x cx dx /\ sha_run y cy dy /\
    In a cx /\ In b cy /\ proper_input a /\ proper_input b /\
    a <> b /\ compress (fst a) (snd a) = compress (fst b) (snd b).

(** Messages of fewer than 2^64 bits. *)
Definition short (x : list byte) : Prop := (N.of_nat (length x) < 2 ^ 61)%N.
