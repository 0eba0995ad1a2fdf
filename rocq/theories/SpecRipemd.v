(** RIPEMD-160 on top of its compression function: padding, splitting into blocks, chaining.
    Written with relations, independently of the functions [rpad], [rwords] and [rblocks] of [Ripemd.v];
    only [rcompress] and its state are shared. *)
From Verif Require Import Base Ripemd.
Local Open Scope nat_scope.

(** [p] is the message [x], a one bit, the fewest zero bits and the bit length on 64 bits, least byte first. *)
Definition rpadded (x p : list byte) : Prop :=
  exists z, p = x ++ x80 :: repeat x00 z ++ le 8 (8 * N.of_nat (length x)) /\
    z < 64 /\ Nat.divide 64 (length p).

(** [bs] are the blocks of sixteen 32-bit words, least byte first, of which [p] consists. *)
Definition rblocks_of (p : list byte) (bs : list (list N)) : Prop :=
  Forall (fun b => length b = 16) bs /\ Forall (Forall (fun w => (w < 2 ^ 32)%N)) bs /\
  p = concat (map (le 4) (concat bs)).

(** Chaining from [s] through the blocks to [s'], with the inputs of the compression function. *)
Inductive rchain : rst -> list (list N) -> list (rst * list N) -> rst -> Prop :=
| rch_nil s : rchain s [] [] s
| rch_cons s b bs calls s' : rchain (rcompress s b) bs calls s' -> rchain s (b :: bs) ((s, b) :: calls) s'.

Definition rwords_of (s : rst) : list N := [ra s; rb s; rc s; rd s; re s].
Definition rdigest_of (s : rst) : list byte := concat (map (le 4) (rwords_of s)).

(** Hashing [x] calls the compression function on [calls], giving the digest [d]. *)
Definition rmd_run (x : list byte) (calls : list (rst * list N)) (d : list byte) : Prop :=
  exists p bs s, rpadded x p /\ rblocks_of p bs /\ rchain riv bs calls s /\ d = rdigest_of s.

(** A proper input of the compression function: five and sixteen 32-bit words. *)
Definition rproper_input (c : rst * list N) : Prop :=
  Forall (fun w => (w < 2 ^ 32)%N) (rwords_of (fst c)) /\
  length (snd c) = 16 /\ Forall (fun w => (w < 2 ^ 32)%N) (snd c).

(** Two different proper inputs with the same output of the compression function, both used
    in hashing strings of [L]. *)
Definition rcompress_collision_in (L : list (list byte)) : Prop :=
  exists x cx dx y cy dy a b, In x L /\ In y L /\ rmd_run x cx dx /\ rmd_run y cy dy /\
    In a cx /\ In b cy /\ rproper_input a /\ rproper_input b /\
    a <> b /\ rcompress (fst a) (snd a) = rcompress (fst b) (snd b).

(** The string hashed for data under a tag whose digest is [d]. *)
Definition r_pre (d data : list byte) : list byte := d ++ d ++ data.
