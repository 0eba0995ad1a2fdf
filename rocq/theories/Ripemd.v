(** Executable RIPEMD-160 (Dobbertin, Bosselaers, Preneel 1996), the digest of the second [DigestExt]
    instance (digest.rs:22, 60-75, via the [ripemd] crate), and that instance. The crate is outside /repo:
    this file models its published specification. *)
From Verif Require Import Base Digest Sha256.
Local Open Scope N_scope.

Definition rotl (n x : N) : N := rotr (32 - n) x.
Definition or32 (a b : N) : N := N.lor a b.
Definition xor3 (a b c : N) : N := N.lxor (N.lxor a b) c.

(** Five Boolean functions. *)
Definition rf (i : nat) (x y z : N) : N :=
  match i with
  | 0%nat => xor3 x y z
  | 1%nat => or32 (N.land x y) (N.land (not32 x) z)
  | 2%nat => N.lxor (or32 x (not32 y)) z
  | 3%nat => or32 (N.land x z) (N.land y (not32 z))
  | _ => N.lxor x (or32 y (not32 z))
  end.

(** One line is five groups of sixteen steps: the constant and, per step, the word and the rotation. *)
Definition left_k : list N := [0; 0x5a827999; 0x6ed9eba1; 0x8f1bbcdc; 0xa953fd4e].
Definition right_k : list N := [0x50a28be6; 0x5c4dd124; 0x6d703ef3; 0x7a6d76e9; 0].
Definition left_r : list (list nat) :=
 [[0;1;2;3;4;5;6;7;8;9;10;11;12;13;14;15]; [7;4;13;1;10;6;15;3;12;0;9;5;2;14;11;8];
  [3;10;14;4;9;15;8;1;2;7;0;6;13;11;5;12]; [1;9;11;10;0;8;12;4;13;3;7;15;14;5;6;2];
  [4;0;5;9;7;12;2;10;14;1;3;8;11;6;15;13]]%nat.
Definition right_r : list (list nat) :=
 [[5;14;7;0;9;2;11;4;13;6;15;8;1;10;3;12]; [6;11;3;7;0;13;5;10;14;15;8;12;4;9;1;2];
  [15;5;1;3;7;14;6;9;11;8;12;2;10;0;4;13]; [8;6;4;1;3;11;15;0;5;12;2;13;9;7;10;14];
  [12;15;10;4;1;5;8;7;6;2;13;14;0;3;9;11]]%nat.
Definition left_s : list (list N) :=
 [[11;14;15;12;5;8;7;9;11;13;14;15;6;7;9;8]; [7;6;8;13;11;9;7;15;7;12;15;9;11;7;13;12];
  [11;13;6;7;14;9;13;15;14;8;13;6;5;12;7;5]; [11;12;14;15;14;15;9;8;9;14;5;6;8;6;5;12];
  [9;15;5;11;6;8;13;12;5;12;13;14;11;8;5;6]].
Definition right_s : list (list N) :=
 [[8;9;9;11;13;15;15;5;7;7;8;11;14;14;12;6]; [9;13;15;7;12;8;9;11;7;7;12;7;6;15;13;11];
  [9;7;15;11;8;6;6;14;12;13;5;14;13;13;7;5]; [15;5;8;11;14;14;6;14;6;9;12;9;12;5;15;8];
  [8;5;12;9;12;5;14;6;8;13;6;5;15;13;11;11]].

Record rst := RST { ra : N; rb : N; rc : N; rd : N; re : N }.
Definition riv : rst := RST 0x67452301 0xefcdab89 0x98badcfe 0x10325476 0xc3d2e1f0.

Definition rstep (f : N -> N -> N -> N) (k w s : N) (x : rst) : rst :=
  let t := add32 (rotl s (add32 (add32 (ra x) (f (rb x) (rc x) (rd x))) (add32 w k))) (re x) in
  RST (re x) t (rb x) (rotl 10 (rc x)) (rd x).
Fixpoint rgroup (f : N -> N -> N -> N) (k : N) (block : list N) (rs : list nat) (ss : list N) (x : rst) : rst :=
  match rs, ss with
  | r :: rs', s :: ss' => rgroup f k block rs' ss' (rstep f k (nth r block 0) s x)
  | _, _ => x
  end.
(** [is]: the indices of the Boolean functions, ascending on the left line and descending on the right *)
Fixpoint rline (is : list nat) (ks : list N) (rss : list (list nat)) (sss : list (list N)) (block : list N) (x : rst) : rst :=
  match is, ks, rss, sss with
  | i :: is', k :: ks', rs :: rss', ss :: sss' => rline is' ks' rss' sss' block (rgroup (rf i) k block rs ss x)
  | _, _, _, _ => x
  end.

Definition rcompress (s : rst) (block : list N) : rst :=
  let l := rline [0;1;2;3;4]%nat left_k left_r left_s block s in
  let r := rline [4;3;2;1;0]%nat right_k right_r right_s block s in
  RST (add32 (add32 (rb s) (rc l)) (rd r)) (add32 (add32 (rc s) (rd l)) (re r)) (add32 (add32 (rd s) (re l)) (ra r))
      (add32 (add32 (re s) (ra l)) (rb r)) (add32 (add32 (ra s) (rb l)) (rc r)).

(** Little-endian words of a padded message. *)
Fixpoint rwords (l : list byte) : list N :=
  match l with
  | a :: b :: c :: d :: r =>
      (((Byte.to_N d * 256 + Byte.to_N c) * 256 + Byte.to_N b) * 256 + Byte.to_N a) :: rwords r
  | _ => []
  end.

Definition rpad (l : list byte) : list byte :=
  let n := length l in
  let z := ((55 + 64 - n mod 64) mod 64)%nat in
  l ++ [x80] ++ repeat x00 z ++ le 8 (8 * N.of_nat n).

Fixpoint rblocks (fuel : nat) (ws : list N) (s : rst) : rst :=
  match fuel with
  | O => s
  | S f => match ws with
           | [] => s
           | _ => rblocks f (skipn 16 ws) (rcompress s (firstn 16 ws))
           end
  end.

Definition ripemd160 (l : list byte) : list byte :=
  let ws := rwords (rpad l) in
  let s := rblocks (length ws) ws riv in
  le 4 (ra s) ++ le 4 (rb s) ++ le 4 (rc s) ++ le 4 (rd s) ++ le 4 (re s).

(** digest.rs:61-70 [from_tag] for Ripemd160 *)
Definition rmd_from_tag (tag : list byte) : sha_engine := from_tag_with ripemd160 tag.
(** digest.rs:74 [finish] for Ripemd160 *)
Definition rmd_finish (e : sha_engine) : list byte := ripemd160 e.

(** Tests of the model (not proofs of anything): vectors of the publication. *)
Example rmd_empty : hex (ripemd160 []) = "9c1185a5c5e9fc54612808977ee8f548b2258d31"%string.
Proof. vm_compute. reflexivity. Qed.
Example rmd_a : hex (ripemd160 (str "a")) = "0bdc9d2d256b3ee9daae347be6f4dc835a467ffe"%string.
Proof. vm_compute. reflexivity. Qed.
Example rmd_abc : hex (ripemd160 (str "abc")) = "8eb208f7e05d987a9b044a8e98c6b087f15a0bfc"%string.
Proof. vm_compute. reflexivity. Qed.
Example rmd_two_blocks :
  hex (ripemd160 (str "abcdbcdecdefdefgefghfghighijhijkijkljklmklmnlmnomnopnopq")) =
  "12a053384a9c0c88e405a06c27dcf49ada62eb2b"%string.
Proof. vm_compute. reflexivity. Qed.
