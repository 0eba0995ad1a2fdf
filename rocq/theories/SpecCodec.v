(** Specification of codecs. *)
From Verif Require Import Base Strict.

Record lawful {A} (c : codec A) (valid : A -> Prop) : Prop := Lawful {
  law_rt : forall a r, valid a -> dec c (enc c a ++ r) = Some (a, r);
  law_can : forall l a r, dec c l = Some (a, r) -> l = enc c a ++ r /\ valid a
}.
