(** Common vocabulary of the model: bytes, 32-byte arrays, little-endian
    integers, panics, build profiles and the machine arithmetic used by the
    code.  Definitions only (plus the few facts needed to make them total). *)
From Coq Require Export String.
From Coq Require Export List Arith NArith Bool Lia.
From Coq Require Export Strings.Byte.
From Coq Require Import Eqdep_dec.
Export ListNotations.
Open Scope list_scope.

(** ** Panics.  A Rust function which may panic is modelled by a function into
    [outcome]: [Panic] stands for unwinding (assert!, expect, unwrap, overflow
    check, explicit panic!).  The kind is kept for readability only. *)
Inductive panic : Set :=
| PArith        (* overflow check / division by zero *)
| PAssert       (* assert!, assert_eq! *)
| PDebugAssert  (* debug_assert!, debug_assert_eq! *)
| PExpect       (* Option/Result::expect, unwrap *)
| PUnreachable  (* unreachable!, panic! *)
| PIndex        (* index out of bounds *)
| PFuel.        (* not a Rust panic: the model ran out of fuel; theorems exclude it *)

Inductive outcome (A : Type) : Type :=
| Ret (a : A)
| Panic (p : panic).
Arguments Ret {A} a.
Arguments Panic {A} p.

Definition bind {A B} (o : outcome A) (f : A -> outcome B) : outcome B :=
  match o with Ret a => f a | Panic p => Panic p end.
Notation "x <- e ;; k" := (bind e (fun x => k))
  (at level 61, e at next level, right associativity).
Notation "' p <- e ;; k" := (bind e (fun x => let p := x in k))
  (at level 61, p pattern, e at next level, right associativity).
Notation "e ;;; k" := (bind e (fun _ => k)) (at level 61, right associativity).

(** Rust [Result<A, E>]. *)
Inductive result (A E : Type) : Type :=
| Ok (a : A)
| Err (e : E).
Arguments Ok {A E} a.
Arguments Err {A E} e.

(** Build profile.  [Debug]: debug assertions and overflow checks on (cargo's
    dev/test profiles).  [Release]: both off (cargo's release profile). *)
Inductive mode : Set := Debug | Release.

(** debug_assert!(b) *)
Definition debug_assert (md : mode) (b : bool) : outcome unit :=
  match md with
  | Debug => if b then Ret tt else Panic PDebugAssert
  | Release => Ret tt
  end.

(** assert!(b) *)
Definition assert (b : bool) : outcome unit :=
  if b then Ret tt else Panic PAssert.

(** ** amplify::num::u5 — values 0..=31, represented by [nat].  The arithmetic
    operators of amplify_num 0.5.3 panic when the result leaves the range, in
    both profiles (the crate is not in /repo: trusted, see DESIGN.md). *)
Definition u5_max : nat := 31.
Definition u5_with (n : nat) : outcome nat :=
  if n <=? u5_max then Ret n else Panic PAssert.
Definition u5_add (a b : nat) : outcome nat :=
  if a + b <=? u5_max then Ret (a + b) else Panic PArith.
Definition u5_sub (a b : nat) : outcome nat :=
  if b <=? a then Ret (a - b) else Panic PArith.
Definition u5_checked_add (a b : nat) : option nat :=
  if a + b <=? u5_max then Some (a + b) else None.

(** ** u32 arithmetic *)
Definition u32_lim : N := (2 ^ 32)%N.
Definition u32_add (md : mode) (a b : N) : outcome N :=
  if (a + b <? u32_lim)%N then Ret (a + b)%N
  else match md with Debug => Panic PArith | Release => Ret ((a + b) mod u32_lim)%N end.
Definition u32_sub (md : mode) (a b : N) : outcome N :=
  if (b <=? a)%N then Ret (a - b)%N
  else match md with Debug => Panic PArith | Release => Ret (a + u32_lim - b)%N end.
(** 2u32.pow(e): overflows from e = 32 on; wrapping gives 0. *)
Definition u32_pow2 (md : mode) (e : N) : outcome N :=
  if (e <? 32)%N then Ret (2 ^ e)%N
  else match md with Debug => Panic PArith | Release => Ret 0%N end.
(** a % b: a zero divisor panics in both profiles. *)
Definition u32_rem (a b : N) : outcome N :=
  if (b =? 0)%N then Panic PArith else Ret (a mod b)%N.

(** ** Bytes *)
Definition byte_of_N (n : N) : byte :=
  match Byte.of_N (n mod 256) with Some b => b | None => x00 end.

(** [uN::to_le_bytes] for a [k]-byte integer. *)
Fixpoint le (k : nat) (v : N) : list byte :=
  match k with
  | O => []
  | S k' => byte_of_N v :: le k' (v / 256)
  end.

(** [from_le_bytes] *)
Fixpoint le_val (l : list byte) : N :=
  match l with
  | [] => 0
  | b :: r => Byte.to_N b + 256 * le_val r
  end%N.

(** Byte-wise equality and lexicographic order of byte strings ([u8; N]'s
    derived [Eq] and [Ord]). *)
Fixpoint bytes_eqb (a b : list byte) : bool :=
  match a, b with
  | [], [] => true
  | x :: a', y :: b' => Byte.eqb x y && bytes_eqb a' b'
  | _, _ => false
  end.
Fixpoint bytes_ltb (a b : list byte) : bool :=
  match a, b with
  | [], _ :: _ => true
  | x :: a', y :: b' =>
      (Byte.to_N x <? Byte.to_N y)%N || (Byte.eqb x y && bytes_ltb a' b')
  | _, _ => false
  end.

(** ** amplify::Bytes32: exactly 32 bytes. *)
Record bytes32 : Set := B32 {
  b32 :> list byte;
  b32_ok : (length b32 =? 32) = true
}.

Lemma b32_length (a : bytes32) : length a = 32.
Proof. destruct a as [l H]; cbn. apply Nat.eqb_eq; exact H. Qed.

Lemma b32_inj (a b : bytes32) : b32 a = b32 b -> a = b.
Proof.
  destruct a as [l H], b as [l' H']; cbn; intros ->.
  f_equal. apply UIP_dec. apply bool_dec.
Qed.

Definition b32_eqb (a b : bytes32) : bool := bytes_eqb a b.
Definition b32_ltb (a b : bytes32) : bool := bytes_ltb a b.

(** [Bytes32::with_fill] *)
Definition b32_fill (b : byte) : bytes32 := B32 (repeat b 32) eq_refl.

(** A list of 32 bytes as [bytes32]; [None] for any other length
    ([Bytes32::copy_from_slice], atoms.rs:63-65,83-85,139-141). *)
Definition b32_of (l : list byte) : option bytes32 :=
  match bool_dec (length l =? 32) true with
  | left e => Some (B32 l e)
  | right _ => None
  end.

(** 256-bit little-endian number as 32 bytes and back
    (amplify::num::u256::{to,from}_le_bytes). *)
Lemma le_length k v : length (le k v) = k.
Proof. revert v; induction k as [|k IH]; intros v; cbn; [reflexivity|]. rewrite IH. reflexivity. Qed.

Lemma le32_ok v : (length (le 32 v) =? 32) = true.
Proof. rewrite le_length. reflexivity. Qed.

Definition b32_of_N (v : N) : bytes32 :=
  match b32_of (le 32 v) with Some b => b | None => b32_fill x00 end.
Definition N_of_b32 (b : bytes32) : N := le_val b.

(** ** The hash function.  [HASH l] is the SHA-256 digest of the byte string
    [l].  The whole model is parametric in it; [Sha256.v] gives the concrete
    instance. *)
Class Hasher : Type := HASH : list byte -> bytes32.

(** UTF-8 bytes of a Rust string literal. *)
Definition str (s : String.string) : list byte := String.list_byte_of_string s.
Arguments str s%string.
