(** SHA-256 (FIPS 180-4) and RIPEMD-160 (Dobbertin, Bosselaers, Preneel 1996) without any function of [Sha256.v] and
    [Ripemd.v]: words as sequences of bits, constants from roots of primes, orders of words from permutations. *)
From Verif Require Import Base SpecSha SpecRipemd.
Local Open Scope nat_scope.

(** ** Words of 32 bits; bit 0 is the least *)
Definition bit (x : N) (i : nat) : bool := N.testbit x (N.of_nat i).
Fixpoint bits_val (n : nat) (b : nat -> bool) : N :=
  match n with
  | O => 0
  | S n' => bits_val n' b + (if b n' then 2 ^ N.of_nat n' else 0)
  end.
Definition word (b : nat -> bool) : N := bits_val 32 b.
Definition sum32 (l : list N) : N := (fold_right N.add 0 l mod 2 ^ 32)%N.

(** Bits of rotations and of a shift to the right *)
Definition turned (n : nat) (x : N) (i : nat) : bool := bit x ((i + n) mod 32).
Definition shifted (n : nat) (x : N) (i : nat) : bool := (i + n <? 32) && bit x (i + n).
Definition rot_left (n : nat) (x : N) : N := word (turned (32 - n) x).

(** ** Constants *)
Definition is_prime (p : N) : Prop := (1 < p)%N /\ forall d, N.divide d p -> d = 1%N \/ d = p.
(** There are exactly [t] primes below the prime [p]. *)
Definition nth_prime (t : nat) (p : N) : Prop :=
  is_prime p /\ exists l, NoDup l /\ length l = t /\ forall q, In q l <-> is_prime q /\ (q < p)%N.
(** [k] is the whole part of 2^e times the [r]-th root of [p]. *)
Definition root (r e p k : N) : Prop := (k ^ r <= p * 2 ^ (e * r) < (k + 1) ^ r)%N.
(** [k] is the first 32 bits of the fractional part of the root. *)
Definition root_bits (r p k : N) : Prop := exists v, root r 32 p v /\ k = (v mod 2 ^ 32)%N.

(** ** SHA-256 *)
Definition Choose x y z : N := word (fun i => if bit x i then bit y i else bit z i).
Definition Majority x y z : N := word (fun i => (bit x i && bit y i) || (bit x i && bit z i) || (bit y i && bit z i)).
Definition Xor3 (a b c : nat -> bool) : N := word (fun i => xorb (a i) (xorb (b i) (c i))).

Definition sha_round (k w : N) (s s' : list N) : Prop :=
  match s with
  | [a; b; c; d; e; f; g; h] =>
      let t1 := [h; Xor3 (turned 6 e) (turned 11 e) (turned 25 e); Choose e f g; k; w] in
      let t2 := [Xor3 (turned 2 a) (turned 13 a) (turned 22 a); Majority a b c] in
      s' = [sum32 (t1 ++ t2); a; b; c; sum32 (d :: t1); e; f; g]
  | _ => False
  end.
(** From the state [s] with the block [M] to the state [s'] *)
Definition sha_compresses (s M s' : list N) : Prop :=
  exists (K W : nat -> N) (S : nat -> list N),
    (forall t, t < 64 -> exists p, nth_prime t p /\ root_bits 3 p (K t)) /\
    (forall t, t < 16 -> nth_error M t = Some (W t)) /\
    (forall t, 16 <= t < 64 -> W t = sum32 [Xor3 (turned 17 (W (t - 2))) (turned 19 (W (t - 2))) (shifted 10 (W (t - 2))); W (t - 7);
                                            Xor3 (turned 7 (W (t - 15))) (turned 18 (W (t - 15))) (shifted 3 (W (t - 15))); W (t - 16)]) /\
    S 0 = s /\ (forall t, t < 64 -> sha_round (K t) (W t) (S t) (S (t + 1))) /\
    s' = map (fun p => sum32 [fst p; snd p]) (combine s (S 64)).
Inductive through (F : list N -> list N -> list N -> Prop) : list N -> list (list N) -> list N -> Prop :=
| through_nil s : through F s [] s
| through_cons s b s1 bs s' : F s b s1 -> through F s1 bs s' -> through F s (b :: bs) s'.
Definition sha_published (x d : list byte) : Prop :=
  exists s0 p bs s, length s0 = 8 /\ (forall t, t < 8 -> exists q, nth_prime t q /\ root_bits 2 q (nth t s0 0%N)) /\
    padded x p /\ blocks_of p bs /\ through sha_compresses s0 bs s /\ d = concat (map (s_be 4) s).

(** ** RIPEMD-160 *)
Definition rho (i : nat) : nat := nth i [7; 4; 13; 1; 10; 6; 15; 3; 12; 0; 9; 5; 2; 14; 11; 8] 0.
(** The word used in the step [j] *)
Definition order_left (j : nat) : nat := Nat.iter (j / 16) rho (j mod 16).
Definition order_right (j : nat) : nat := Nat.iter (j / 16) rho ((9 * (j mod 16) + 5) mod 16).
(** By how much to rotate in a round (line) when the word (column) is used *)
Definition shifts : list (list nat) :=
 [[11; 14; 15; 12; 5; 8; 7; 9; 11; 13; 14; 15; 6; 7; 9; 8]; [12; 13; 11; 15; 6; 9; 9; 7; 12; 15; 11; 13; 7; 8; 7; 7];
  [13; 15; 14; 11; 7; 7; 6; 8; 13; 14; 13; 12; 5; 5; 6; 9]; [14; 11; 12; 14; 8; 6; 5; 5; 15; 12; 15; 14; 9; 9; 8; 6];
  [15; 12; 13; 13; 9; 5; 8; 6; 14; 11; 12; 11; 8; 6; 5; 5]].
Definition small_primes : list N := [2; 3; 5; 7]%N.
Definition k_left (round : nat) (k : N) : Prop :=
  match round with O => k = 0%N | S n => exists p, nth_error small_primes n = Some p /\ root 2 30 p k end.
Definition k_right (round : nat) (k : N) : Prop :=
  match nth_error small_primes round with Some p => root 3 30 p k | None => k = 0%N end.
Definition mixed (round : nat) (x y z : N) : N :=
  word (fun i => let x := bit x i in let y := bit y i in let z := bit z i in
    match round with
    | 0 => xorb x (xorb y z)
    | 1 => if x then y else z
    | 2 => xorb (x || negb y) z
    | 3 => if z then x else y
    | _ => xorb x (y || negb z)
    end).
Definition rmd_step (f k w : N) (n : nat) (s s' : list N) : Prop :=
  match s with
  | [a; b; c; d; e] => s' = [e; sum32 [rot_left n (sum32 [a; f; w; k]); e]; b; rot_left 10 c; d]
  | _ => False
  end.
Definition rmd_line (order : nat -> nat) (func : nat -> nat) (is_k : nat -> N -> Prop) (X s s' : list N) : Prop :=
  exists (K : nat -> N) (S : nat -> list N), (forall r, r < 5 -> is_k r (K r)) /\ S 0 = s /\ S 80 = s' /\
    forall j, j < 80 -> exists a b c d e w, S j = [a; b; c; d; e] /\ nth_error X (order j) = Some w /\
      rmd_step (mixed (func (j / 16)) b c d) (K (j / 16)) w (nth (order j) (nth (j / 16) shifts []) 0) (S j) (S (j + 1)).
Definition rmd_compresses (s X s' : list N) : Prop :=
  exists h0 h1 h2 h3 h4 a b c d e a' b' c' d' e', s = [h0; h1; h2; h3; h4] /\
    rmd_line order_left (fun r => r) k_left X s [a; b; c; d; e] /\
    rmd_line order_right (fun r => 4 - r) k_right X s [a'; b'; c'; d'; e'] /\
    s' = [sum32 [h1; c; d']; sum32 [h2; d; e']; sum32 [h3; e; a']; sum32 [h4; a; b']; sum32 [h0; b; c']].
Definition rmd_published (x d : list byte) : Prop :=
  exists s0 p bs s, concat (map (le 4) s0) = [x01; x23; x45; x67; x89; xab; xcd; xef; xfe; xdc; xba; x98; x76; x54; x32; x10; xf0; xe1; xd2; xc3] /\
    Forall (fun w => (w < 2 ^ 32)%N) s0 /\ rpadded x p /\ rblocks_of p bs /\ through rmd_compresses s0 bs s /\ d = concat (map (le 4) s).
