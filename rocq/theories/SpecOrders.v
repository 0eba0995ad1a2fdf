(** Specification of orders, independent of how they are computed. *)
From Verif Require Import Base MpcAtoms MpcBlock.

(** A linear order agreeing with equality. *)
Definition linear_order {A} (c : A -> A -> comparison) : Prop :=
  (forall a b, c a b = Eq <-> a = b) /\
  (forall a b, c a b = Lt <-> c b a = Gt) /\
  (forall x y z, c x y = Lt -> c y z = Lt -> c x z = Lt).

(** The number written by a byte string, most significant byte first. *)
Definition be_number (l : list byte) : N := fold_left (fun n b => 256 * n + Byte.to_N b)%N l 0%N.

(** Lexicographic order: the first difference decides, or the first is a proper prefix. *)
Definition lex_less {A} (less : A -> A -> Prop) (l m : list A) : Prop :=
  exists p, (l = p /\ exists y r, m = p ++ y :: r) \/
            (exists x y l' m', l = p ++ x :: l' /\ m = p ++ y :: m' /\ less x y).

Definition id_less (a b : bytes32) : Prop := (be_number a < be_number b)%N.
Definition entry_less (a b : bytes32 * bytes32) : Prop :=
  id_less (fst a) (fst b) \/ (fst a = fst b /\ id_less (snd a) (snd b)).

(** Position first, then cofactor, then path. *)
Definition proof_less (a b : merkle_proof) : Prop :=
  (mp_pos a < mp_pos b)%N \/
  (mp_pos a = mp_pos b /\
   ((mp_cofactor a < mp_cofactor b)%N \/ (mp_cofactor a = mp_cofactor b /\ lex_less id_less (mp_path a) (mp_path b)))).

(** Depth first, then messages, then entropy, no entropy being least. *)
Definition source_less (a b : multi_source) : Prop :=
  ms_min_depth a < ms_min_depth b \/
  (ms_min_depth a = ms_min_depth b /\
   (lex_less entry_less (ms_messages a) (ms_messages b) \/
    (ms_messages a = ms_messages b /\
     match ms_static_entropy a, ms_static_entropy b with
     | None, Some _ => True
     | Some x, Some y => (x < y)%N
     | _, None => False
     end))).

(** The value given last for a key. *)
Definition last_entry (l : list (bytes32 * bytes32)) (k v : bytes32) : Prop :=
  exists l1 l2, l = l1 ++ (k, v) :: l2 /\ ~ In k (map fst l2).
