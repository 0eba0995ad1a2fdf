(** Strict encoding of the consensus data types.  The strict_encoding crate
    (2.8.1) and its derive macros are outside /repo; the combinators below are its
    published layout: little-endian integers, one byte for u5 and for C-like enums
    (tags = repr), tag byte followed by the fields for data enums, fields in order
    for structs, length prefix sized by the maximal length for collections.
    Decoding errors are collapsed into [None] (kinds of DecodeError not modelled). *)
From Verif Require Import Base OrdMap.

Record codec (A : Type) : Type := Codec {
  enc : A -> list byte;                       (* StrictEncode::strict_encode *)
  dec : list byte -> option (A * list byte)   (* StrictDecode::strict_decode: value, rest *)
}.
Arguments Codec {A}.
Arguments enc {A}.
Arguments dec {A}.

Definition c_byte : codec byte :=
  Codec (fun b => [b]) (fun l => match l with [] => None | b :: r => Some (b, r) end).

(** [k] bytes exactly *)
Definition take (k : nat) (l : list byte) : option (list byte * list byte) :=
  if k <=? length l then Some (firstn k l, skipn k l) else None.

(** k-byte unsigned integer (u8, u16, u24, u32, u64, u256) *)
Definition c_le (k : nat) : codec N :=
  Codec (le k)
        (fun l => match take k l with Some (a, r) => Some (le_val a, r) | None => None end).

(** [Bytes32] and its newtype wrappers *)
Definition c_b32 : codec bytes32 :=
  Codec b32
        (fun l => match take 32 l with
                  | Some (a, r) => match b32_of a with Some b => Some (b, r) | None => None end
                  | None => None
                  end).

(** Re-labelling along a pair of functions. *)
Definition c_iso {A B} (c : codec A) (f : A -> B) (g : B -> A) : codec B :=
  Codec (fun b => enc c (g b))
        (fun l => match dec c l with Some (a, r) => Some (f a, r) | None => None end).

(** Partial re-labelling: decoding fails where [f] is undefined. *)
Definition c_part {A B} (c : codec A) (f : A -> option B) (g : B -> A) : codec B :=
  Codec (fun b => enc c (g b))
        (fun l => match dec c l with
                  | Some (a, r) => match f a with Some b => Some (b, r) | None => None end
                  | None => None
                  end).

(** Decoding fails unless the check holds. *)
Definition c_check {A} (c : codec A) (p : A -> bool) : codec A :=
  c_part c (fun a => if p a then Some a else None) (fun a => a).

(** u5: one byte, values above 31 rejected *)
Definition c_u5 : codec nat :=
  c_part (c_le 1) (fun v => if (v <? 32)%N then Some (N.to_nat v) else None) N.of_nat.

(** Consecutive fields *)
Definition c_pair {A B} (ca : codec A) (cb : codec B) : codec (A * B) :=
  Codec (fun p => enc ca (fst p) ++ enc cb (snd p))
        (fun l => match dec ca l with
                  | Some (a, r) => match dec cb r with
                                   | Some (b, r') => Some ((a, b), r')
                                   | None => None
                                   end
                  | None => None
                  end).

(** Two-variant data enum with the given tag bytes *)
Definition c_sum {A B} (ta tb : byte) (ca : codec A) (cb : codec B) : codec (A + B) :=
  Codec (fun s => match s with inl a => ta :: enc ca a | inr b => tb :: enc cb b end)
        (fun l => match l with
                  | [] => None
                  | t :: r =>
                      if Byte.eqb t ta then
                        match dec ca r with Some (a, r') => Some (inl a, r') | None => None end
                      else if Byte.eqb t tb then
                        match dec cb r with Some (b, r') => Some (inr b, r') | None => None end
                      else None
                  end).

Definition c_unit : codec unit := Codec (fun _ => []) (fun l => Some (tt, l)).

(** Option<T>: 0 for None, 1 and the value for Some *)
Definition c_option {A} (c : codec A) : codec (option A) :=
  c_iso (c_sum x00 x01 c_unit c)
        (fun s => match s with inl _ => None | inr a => Some a end)
        (fun o => match o with None => inl tt | Some a => inr a end).

Fixpoint dec_items {A} (c : codec A) (n : nat) (l : list byte) : option (list A * list byte) :=
  match n with
  | O => Some ([], l)
  | S n' => match dec c l with
            | Some (a, r) => match dec_items c n' r with
                             | Some (x, r') => Some (a :: x, r')
                             | None => None
                             end
            | None => None
            end
  end.

(** Confined<Vec<T>, MIN, MAX>: [k]-byte length, then the items; lengths outside
    MIN..=MAX rejected. *)
Definition c_vec {A} (k : nat) (min max : N) (c : codec A) : codec (list A) :=
  Codec (fun x => le k (N.of_nat (length x)) ++ flat_map (enc c) x)
        (fun l => match dec (c_le k) l with
                  | Some (n, r) =>
                      if ((min <=? n) && (n <=? max))%N then dec_items c (N.to_nat n) r else None
                  | None => None
                  end).

(** Confined<BTreeMap<K, V>, MIN, MAX>: as a vector of pairs; keys which are not
    strictly increasing are rejected. *)
Definition c_omap {K V} (k : nat) (min max : N) (ltb : K -> K -> bool)
    (ck : codec K) (cv : codec V) : codec (list (K * V)) :=
  c_check (c_vec k min max (c_pair ck cv)) (om_sorted ltb).
