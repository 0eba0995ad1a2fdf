(** Executable SHA-256 (FIPS 180-4): the digest used throughout the code via
    the [sha2] crate (digest.rs:23, 43-58).  It is only used to instantiate the
    otherwise parametric hash in examples and counterexamples; the crate itself
    is outside /repo, so this file models its published specification. *)
From Verif Require Import Base.
Local Open Scope N_scope.

Definition w32 : N := 2 ^ 32.
Definition add32 (a b : N) : N := (a + b) mod w32.
Definition rotr (n x : N) : N :=
  N.lor (N.shiftr x n) (N.land (N.shiftl x (32 - n)) (w32 - 1)).
Definition shr (n x : N) : N := N.shiftr x n.
Definition not32 (x : N) : N := N.lxor x (w32 - 1).

Definition Ch x y z := N.lxor (N.land x y) (N.land (not32 x) z).
Definition Maj x y z := N.lxor (N.lxor (N.land x y) (N.land x z)) (N.land y z).
Definition Sg0 x := N.lxor (N.lxor (rotr 2 x) (rotr 13 x)) (rotr 22 x).
Definition Sg1 x := N.lxor (N.lxor (rotr 6 x) (rotr 11 x)) (rotr 25 x).
Definition sg0 x := N.lxor (N.lxor (rotr 7 x) (rotr 18 x)) (shr 3 x).
Definition sg1 x := N.lxor (N.lxor (rotr 17 x) (rotr 19 x)) (shr 10 x).

Definition K256 : list N :=
 [0x428a2f98;0x71374491;0xb5c0fbcf;0xe9b5dba5;0x3956c25b;0x59f111f1;0x923f82a4;0xab1c5ed5;
  0xd807aa98;0x12835b01;0x243185be;0x550c7dc3;0x72be5d74;0x80deb1fe;0x9bdc06a7;0xc19bf174;
  0xe49b69c1;0xefbe4786;0x0fc19dc6;0x240ca1cc;0x2de92c6f;0x4a7484aa;0x5cb0a9dc;0x76f988da;
  0x983e5152;0xa831c66d;0xb00327c8;0xbf597fc7;0xc6e00bf3;0xd5a79147;0x06ca6351;0x14292967;
  0x27b70a85;0x2e1b2138;0x4d2c6dfc;0x53380d13;0x650a7354;0x766a0abb;0x81c2c92e;0x92722c85;
  0xa2bfe8a1;0xa81a664b;0xc24b8b70;0xc76c51a3;0xd192e819;0xd6990624;0xf40e3585;0x106aa070;
  0x19a4c116;0x1e376c08;0x2748774c;0x34b0bcb5;0x391c0cb3;0x4ed8aa4a;0x5b9cca4f;0x682e6ff3;
  0x748f82ee;0x78a5636f;0x84c87814;0x8cc70208;0x90befffa;0xa4506ceb;0xbef9a3f7;0xc67178f2].

Record st := ST { sa:N; sb:N; sc:N; sd:N; se:N; sf:N; sg:N; sh:N }.
Definition iv : st :=
  ST 0x6a09e667 0xbb67ae85 0x3c6ef372 0xa54ff53a 0x510e527f 0x9b05688c 0x1f83d9ab 0x5be0cd19.

Definition round (s : st) (k w : N) : st :=
  let t1 := add32 (add32 (add32 (sh s) (Sg1 (se s))) (add32 (Ch (se s) (sf s) (sg s)) k)) w in
  let t2 := add32 (Sg0 (sa s)) (Maj (sa s) (sb s) (sc s)) in
  ST (add32 t1 t2) (sa s) (sb s) (sc s) (add32 (sd s) t1) (se s) (sf s) (sg s).

(** Message schedule: the window holds the last sixteen words, oldest first. *)
Definition next_w (win : list N) : N :=
  add32 (add32 (sg1 (nth 14 win 0)) (nth 9 win 0)) (add32 (sg0 (nth 1 win 0)) (nth 0 win 0)).
Fixpoint rounds (ks : list N) (win : list N) (s : st) : st :=
  match ks with
  | [] => s
  | k :: ks' =>
      match win with
      | [] => s
      | w :: win' => rounds ks' (win' ++ [next_w win]) (round s k w)
      end
  end.

Definition compress (s : st) (block : list N) : st :=
  let r := rounds K256 block s in
  ST (add32 (sa s) (sa r)) (add32 (sb s) (sb r)) (add32 (sc s) (sc r)) (add32 (sd s) (sd r))
     (add32 (se s) (se r)) (add32 (sf s) (sf r)) (add32 (sg s) (sg r)) (add32 (sh s) (sh r)).

(** Big-endian words of a padded message. *)
Fixpoint words (l : list byte) : list N :=
  match l with
  | a :: b :: c :: d :: r =>
      (((Byte.to_N a * 256 + Byte.to_N b) * 256 + Byte.to_N c) * 256 + Byte.to_N d) :: words r
  | _ => []
  end.
Definition be (k : nat) (v : N) : list byte := rev (le k v).

Definition pad (l : list byte) : list byte :=
  let n := length l in
  let z := ((55 + 64 - n mod 64) mod 64)%nat in
  l ++ [x80] ++ repeat x00 z ++ be 8 (8 * N.of_nat n).

Fixpoint blocks (fuel : nat) (ws : list N) (s : st) : st :=
  match fuel with
  | O => s
  | S f => match ws with
           | [] => s
           | _ => blocks f (skipn 16 ws) (compress s (firstn 16 ws))
           end
  end.

Definition sha256_bytes (l : list byte) : list byte :=
  let ws := words (pad l) in
  let s := blocks (length ws) ws iv in
  be 4 (sa s) ++ be 4 (sb s) ++ be 4 (sc s) ++ be 4 (sd s) ++
  be 4 (se s) ++ be 4 (sf s) ++ be 4 (sg s) ++ be 4 (sh s).

Lemma be_length k v : length (be k v) = k.
Proof. unfold be. rewrite rev_length. apply le_length. Qed.

Lemma sha256_bytes_length l : length (sha256_bytes l) = 32%nat.
Proof. unfold sha256_bytes. repeat rewrite app_length. rewrite !be_length. reflexivity. Qed.

(** The instance. The [None] case does not occur ([sha256_total] below). *)
Definition sha256 : Hasher := fun l =>
  match b32_of (sha256_bytes l) with Some b => b | None => b32_fill x00 end.

Lemma sha256_total l : b32 (sha256 l) = sha256_bytes l.
Proof.
  unfold sha256, b32_of. destruct (bool_dec _ true) as [e|e]; [reflexivity|].
  exfalso; apply e. rewrite sha256_bytes_length. reflexivity.
Qed.

(** Hexadecimal rendering, for stating test vectors. *)
Definition hexdig (n : N) : Ascii.ascii :=
  match String.get (N.to_nat n) "0123456789abcdef" with Some c => c | None => Ascii.zero end.
Fixpoint hex (l : list byte) : String.string :=
  match l with
  | [] => String.EmptyString
  | b :: r => String.String (hexdig (Byte.to_N b / 16)) (String.String (hexdig (Byte.to_N b mod 16)) (hex r))
  end.

(** Tests of the model (not proofs of anything): FIPS 180 vectors. *)
Example sha256_empty : hex (sha256 []) =
  "e3b0c44298fc1c149afbf4c8996fb92427ae41e4649b934ca495991b7852b855"%string.
Proof. vm_compute. reflexivity. Qed.
Example sha256_abc : hex (sha256 (str "abc")) =
  "ba7816bf8f01cfea414140de5dae2223b00361a396177a9cb410ff61f20015ad"%string.
Proof. vm_compute. reflexivity. Qed.
Example sha256_two_blocks :
  hex (sha256 (str "abcdbcdecdefdefgefghfghighijhijkijkljklmklmnlmnomnopnopq")) =
  "248d6a61d20638b8e5c026930c3e6039a33ce45964ff2167f6ecedd419db06c1"%string.
Proof. vm_compute. reflexivity. Qed.

(** Test vectors of commit_verify/derive/tests/base.rs:59-60, 130: tagged hash with the
    empty tag of the bytes 00 00 ([ShortLen(0)]), and of the single bytes 00, 01, 02
    ([Prim::A], [B], [C]), and of the struct (0xdead, 0xbeefcafebaddafec). *)
Definition test_tagged (data : list byte) : String.string :=
  let t := sha256 [] in hex (sha256 (b32 t ++ b32 t ++ data)).
Example vec_shortlen0 : test_tagged [x00; x00] =
  "2bb00b2f346511235882255a898a224b6858e18ebec0a11967eb51f0ed1a2ff5"%string.
Proof. vm_compute. reflexivity. Qed.
Example vec_shortlen : test_tagged [xde; xff] =
  "0290490b549dfcb8a222d42abf53afbd9fadcef480bc61d7a9aeaf19288b394c"%string.
Proof. vm_compute. reflexivity. Qed.
Example vec_prim_a : test_tagged [x00] =
  "82c0f0f259e8cffecead54325fadb48f15a4e761dae5ffaf31209993eacbb24d"%string.
Proof. vm_compute. reflexivity. Qed.
Example vec_prim_c : test_tagged [x02] =
  "e4648d71abe10c0efd626b803ac86d57b1cdc8842f6baa9799ef95cf510784b6"%string.
Proof. vm_compute. reflexivity. Qed.
Example vec_tagged_info : test_tagged (le 2 0xdead ++ le 8 0xbeefcafebaddafec) =
  "8506078e6f47e4b75470cb45a18922785f1a54ba4501473b80ba7b0c363d7490"%string.
Proof. vm_compute. reflexivity. Qed.
