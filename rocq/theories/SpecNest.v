(** Specification: values committed to together with other values, to any depth. *)
From Verif Require Import Base Digest Merkle Engine Strict.
From Verif Require Import SpecHash SpecCodec SpecEngine SpecIdGame.
Local Open Scope nat_scope.

(** What an implementation of CommitEncode feeds into its engine: a field of its own, a value by its id, or a collection of
    values by the Merkle root of their ids. *)
Inductive part (X : Type) : Type :=
| Plain (f : field)
| Inner (t : strict_type) (x : X)
| Inners (t : strict_type) (xs : list X).
Arguments Plain {X}. Arguments Inner {X}. Arguments Inners {X}.
Inductive composite : Type := Composite (tag : list byte) (parts : list (part composite)).

Definition kids_of {X} (p : part X) : list X := match p with Plain _ => [] | Inner _ x => [x] | Inners _ xs => xs end.
Definition kids {X} (ps : list (part X)) : list X := flat_map kids_of ps.

(** The number of values in a value, itself included *)
Fixpoint nodes (v : composite) : nat :=
  match v with Composite _ ps => S (list_sum (map (fun p =>
    match p with Plain _ => 0 | Inner _ x => nodes x | Inners _ xs => list_sum (map nodes xs) end) ps)) end.

Definition every_id {X} (idf : X -> outcome bytes32) : list X -> outcome (list bytes32) :=
  fix go xs := match xs with [] => Ret [] | x :: r => i <- idf x ;; is <- go r ;; Ret (i :: is) end.

Section WithHash.
Context {H : Hasher}.

Definition feed_parts {X} (md : mode) (idf : X -> outcome bytes32) : list (part X) -> engine -> outcome engine :=
  fix go ps e := match ps with
  | [] => Ret e
  | p :: r => e' <- match p with
                    | Plain f => run1 md f e
                    | Inner t x => commit_to_hash md t (idf x) e
                    | Inners t xs => is <- every_id idf xs ;; commit_to_merkle md t is e
                    end ;; go r e'
  end.

(** The id of a value: [commit_id] of the implementation feeding its parts *)
Fixpoint composite_id (md : mode) (v : composite) : outcome bytes32 :=
  match v with Composite tag ps =>
    e <- feed_parts md (composite_id md) ps (engine_new tag) ;; Ret (digest_finish (engine_finish (set_finished e)))
  end.

(** A part as a field: values replaced by their ids *)
Inductive lowers (md : mode) : part composite -> field -> Prop :=
| lo_plain f : lowers md (Plain f) f
| lo_inner t x i : composite_id md x = Ret i -> lowers md (Inner t x) (FHash t i)
| lo_inners t xs is : Forall2 (fun x i => composite_id md x = Ret i) xs is -> lowers md (Inners t xs) (FMerkle t is).

(** All strings hashed for the id of a value *)
Inductive hashes (md : mode) : composite -> list (list byte) -> Prop :=
| ha_node tag ps fs bs Lf Ls : Forall2 (lowers md) ps fs -> Forall2 feeds fs bs -> fields_hashed fs Lf ->
    Forall2 (hashes md) (kids ps) Ls ->
    hashes md (Composite tag ps) ((tag :: s_pre tag (concat bs) :: Lf) ++ concat Ls).

(** No value in it is committed to by hashing more than [n] bytes, nor has collections of many items. *)
Inductive handy (md : mode) (n k : nat) : composite -> Prop :=
| hy_node tag ps fs : Forall2 (lowers md) ps fs -> length tag <= n -> small H n k tag fs ->
    Forall (handy md n k) (kids ps) -> handy md n k (Composite tag ps).
End WithHash.

(** A value and all values in it can be committed to: at most 255 parts each, named types, no reserved type in debug builds,
    collections of fewer than 2^32 items. *)
Definition part_ok (md : mode) (p : part composite) : Prop :=
  match p with
  | Plain f => (exists s, step_for f s) /\ allowed_field md f
  | Inner t _ => exists q, has_fqn t q
  | Inners t xs => (exists q, has_fqn t q) /\ (N.of_nat (length xs) < 2 ^ 32)%N
  end.
Inductive committable (md : mode) : composite -> Prop :=
| cm_node tag ps : length ps <= 255 -> Forall (part_ok md) ps -> Forall (committable md) (kids ps) ->
    committable md (Composite tag ps).

Definition tag_of (v : composite) : list byte := match v with Composite tag _ => tag end.

(** Two values of the same type: the types at the same places agree, only contents and numbers of items differ. The root of a
    collection with one item is the id of the item; either both collections have one item or none, or the items have
    other tags than Merkle nodes. *)
Inductive resembles : composite -> composite -> Prop :=
| re_node tag ps qs : Forall2 resembling ps qs -> resembles (Composite tag ps) (Composite tag qs)
with resembling : part composite -> part composite -> Prop :=
| re_plain f g : same_kind f g -> resembling (Plain f) (Plain g)
| re_inner t x y : resembles x y -> resembling (Inner t x) (Inner t y)
| re_inners t xs ys : (length xs = 1 <-> length ys = 1) \/ (forall x, In x (xs ++ ys) -> tag_of x <> s_node_tag) ->
     (forall x y, In x xs -> In y ys -> resembles x y) ->
    resembling (Inners t xs) (Inners t ys).

(** A value with the tag of Merkle nodes which feeds what a node over two other values does. *)
Definition disguise (u8 : typed N) (t : strict_type) (x y : composite) : composite :=
  Composite s_node_tag [Plain (FSerialized u8 2%N); Plain (FSerialized u8 0%N); Plain (FHash t (b32_of_N 2)); Inner t x; Inner t y].
