(** Specification: two hash functions which agree on listed strings. *)
From Verif Require Import Base.

Definition agree (H H' : Hasher) (L : list (list byte)) : Prop :=
  forall s, In s L -> @HASH H' s = @HASH H s.
