(** Specification: hexadecimal texts of byte strings. *)
From Coq Require Import Ascii.
From Verif Require Import Base.
Local Open Scope nat_scope.

Definition hex_alphabet : string := "0123456789abcdef".

(** Two digits for every byte, the higher half first *)
Inductive hex_of : list byte -> string -> Prop :=
| hex_nil : hex_of [] ""
| hex_byte b l h lo s :
    String.get (N.to_nat (Byte.to_N b / 16)) hex_alphabet = Some h ->
    String.get (N.to_nat (Byte.to_N b mod 16)) hex_alphabet = Some lo ->
    hex_of l s -> hex_of (b :: l) (String h (String lo s)).

(** ASCII lower case *)
Definition lower_char (a : ascii) : ascii :=
  let n := nat_of_ascii a in if (65 <=? n) && (n <=? 90) then ascii_of_nat (n + 32) else a.
Fixpoint lower (s : string) : string :=
  match s with EmptyString => EmptyString | String a r => String (lower_char a) (lower r) end.
