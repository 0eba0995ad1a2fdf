(** Specification: adversaries with access to the hash function, and rare events.
    A hash function is here a table of answers to all strings of at most [n] bytes; all tables count alike. *)
From Verif Require Import Base SpecHash.
Local Open Scope nat_scope.

(** Any computation which may ask for hashes; computation between the questions is unlimited. *)
Inductive prog (A : Type) : Type :=
| Done (a : A)
| Ask (s : list byte) (k : bytes32 -> prog A).
Arguments Done {A}. Arguments Ask {A}.

Fixpoint exec {A} (H : Hasher) (p : prog A) : A :=
  match p with Done a => a | Ask s k => exec H (k (H s)) end.
Fixpoint asked {A} (H : Hasher) (p : prog A) : list (list byte) :=
  match p with Done _ => [] | Ask s k => s :: asked H (k (H s)) end.

(** At most [q] questions of at most [n] bytes, whatever the answers *)
Fixpoint modest {A} (n q : nat) (p : prog A) {struct p} : Prop :=
  match p with
  | Done _ => True
  | Ask s k => match q with O => False | S q' => length s <= n /\ forall a, modest n q' (k a) end
  end.

(** All strings of at most [n] bytes *)
Definition universe (n : nat) (U : list (list byte)) : Prop := NoDup U /\ forall s, In s U <-> length s <= n.

(** The hash function with the answers [f] to the strings [U] *)
Fixpoint table (U : list (list byte)) (f : list bytes32) (s : list byte) : bytes32 :=
  match U, f with
  | u :: U', a :: f' => if bytes_eqb u s then a else table U' f' s
  | _, _ => b32_fill x00
  end.

(** At most the fraction [num / den] of the hash functions on [U] satisfies [P]. *)
Definition rare (U : list (list byte)) (P : Hasher -> Prop) (num den : N) : Prop :=
  forall B, NoDup B -> (forall f, In f B -> length f = length U /\ P (table U f)) ->
  (N.of_nat (length B) * den <= num * 2 ^ (256 * N.of_nat (length U)))%N.
