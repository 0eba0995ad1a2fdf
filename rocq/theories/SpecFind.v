(** Searching a list of strings for a collision: computable, hashing each string of the list. *)
From Verif Require Import Base.

Section WithHash.
Context {H : Hasher}.

Fixpoint find_collision (L : list (list byte)) : option (list byte * list byte) :=
  match L with
  | [] => None
  | x :: r =>
      match find (fun y => negb (bytes_eqb x y) && b32_eqb (HASH x) (HASH y)) r with
      | Some y => Some (x, y)
      | None => find_collision r
      end
  end.

(** A collision of short strings is found in [L]. *)
Definition yields_collision (L : list (list byte)) : Prop :=
  exists x y, find_collision L = Some (x, y) /\ x <> y /\ HASH x = HASH y /\ length x <= 162 /\ length y <= 162.

End WithHash.
