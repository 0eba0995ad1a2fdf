(** Specification of commitments to sequences of typed fields. *)
From Verif Require Import Base Strict SpecHash SpecMerkle Engine.
From Verif Require Import SpecCodec.
Local Open Scope nat_scope.

(** A field together with the way it is committed to. *)
Inductive field : Type :=
| FSerialized {A : Type} (T : typed A) (v : A)
| FOption {A : Type} (T : typed A) (v : option A)
| FHash (t : strict_type) (id : bytes32)
| FMerkle (t : strict_type) (leaves : list bytes32)
| FConcealed {C : Type} (t : strict_type) (CT : codec C) (c : C)
| FList {A : Type} (T : typed A) (min max : N) (l : list A)
| FSet {A : Type} (T : typed A) (min max : N) (l : list A)
| FMap {K V : Type} (TK : typed K) (TV : typed V) (min max : N) (l : list (K * V)).

(** Feeding one field, and a sequence of fields, to an engine. *)
Definition run1 {H : Hasher} (md : mode) (f : field) (e : engine) : outcome engine :=
  match f with
  | FSerialized T v => commit_to_serialized md T v e
  | FOption T v => commit_to_option md T v e
  | FHash t id => commit_to_hash md t (Ret id) e
  | FMerkle t ls => commit_to_merkle md t ls e
  | FConcealed t CT c => commit_to_concealed md t CT (Ret c) e
  | FList T min max l => commit_to_linear_list md T min max l e
  | FSet T min max l => commit_to_linear_set md T min max l e
  | FMap TK TV min max l => commit_to_linear_map md TK TV min max l e
  end.
Fixpoint run {H : Hasher} (md : mode) (fs : list field) (e : engine) : outcome engine :=
  match fs with
  | [] => Ret e
  | f :: r => e' <- run1 md f e ;; run md r e'
  end.

(** Size in bytes of the length prefix of a collection of up to [max] items. *)
Inductive prefix_size : N -> nat -> Prop :=
| ps_8 max : (max < 2 ^ 8)%N -> prefix_size max 1
| ps_16 max : (2 ^ 8 <= max < 2 ^ 16)%N -> prefix_size max 2
| ps_24 max : (2 ^ 16 <= max < 2 ^ 24)%N -> prefix_size max 3
| ps_32 max : (2 ^ 24 <= max < 2 ^ 32)%N -> prefix_size max 4
| ps_64 max : (2 ^ 32 <= max)%N -> prefix_size max 8.

(** The bytes that a field contributes. *)
Definition feeds {H : Hasher} (f : field) (bs : list byte) : Prop :=
  match f with
  | FSerialized T v => bs = enc (ty_codec T) v
  | FOption T None => bs = [x00]
  | FOption T (Some v) => bs = x01 :: enc (ty_codec T) v
  | FHash t id => bs = b32 id
  | FMerkle t ls => exists r, merkle_root_of ls r /\ bs = b32 r
  | FConcealed t CT c => bs = enc CT c
  | FList T min max l | FSet T min max l =>
      exists k, prefix_size max k /\
        bs = le k (N.of_nat (length l)) ++ concat (map (enc (ty_codec T)) l)
  | FMap TK TV min max l =>
      exists k, prefix_size max k /\
        bs = le k (N.of_nat (length l)) ++
             concat (map (fun p => enc (ty_codec TK) (fst p) ++ enc (ty_codec TV) (snd p)) l)
  end.

(** The type has this full name. *)
Definition has_fqn (t : strict_type) (f : type_fqn) : Prop :=
  t = SType (fq_lib f) (Some (fq_name f)).

(** The layout step recorded for a field of a named type. *)
Definition step_for (f : field) (s : commit_step) : Prop :=
  match f with
  | FSerialized T _ | FOption T _ => exists q, has_fqn (ty T) q /\ s = StSerialized q
  | FHash t _ => exists q, has_fqn t q /\ s = StHashed q
  | FMerkle t _ => exists q, has_fqn t q /\ s = StMerklized q
  | FConcealed t _ _ => exists q, has_fqn t q /\ s = StConcealed q
  | FList T min max _ => exists q, has_fqn (ty T) q /\ s = StCollection ColList (Sizing min max) q
  | FSet T min max _ => exists q, has_fqn (ty T) q /\ s = StCollection ColSet (Sizing min max) q
  | FMap TK TV min max _ =>
      exists k q, has_fqn (ty TK) k /\ has_fqn (ty TV) q /\
        s = StCollection (ColMap k) (Sizing min max) q
  end.

(** Directly serialized types must be neither MerkleHash nor StrictHash. *)
Definition not_reserved_type (t : strict_type) : Prop :=
  t <> SType "CommitVerify" (Some "MerkleHash"%string) /\
  t <> SType "CommitVerify" (Some "StrictHash"%string).
Definition allowed_field (md : mode) (f : field) : Prop :=
  match f with
  | FSerialized T _ => md = Debug -> not_reserved_type (ty T)
  | FMerkle _ ls => (N.of_nat (length ls) < 2 ^ 32)%N
  | _ => True
  end.

(** Two fields of the same kind and type whose encoding is canonical on the values. *)
Inductive same_kind : field -> field -> Prop :=
| sk_serialized A (T : typed A) val v w : lawful (ty_codec T) val -> val v -> val w ->
    same_kind (FSerialized T v) (FSerialized T w)
| sk_option A (T : typed A) val v w : lawful (ty_codec T) val ->
    (forall x, v = Some x -> val x) -> (forall x, w = Some x -> val x) ->
    same_kind (FOption T v) (FOption T w)
| sk_hash t i j : same_kind (FHash t i) (FHash t j)
| sk_merkle t xs ys : (length xs = 1 <-> length ys = 1) -> same_kind (FMerkle t xs) (FMerkle t ys)
| sk_concealed C t (CT : codec C) val v w : lawful CT val -> val v -> val w ->
    same_kind (FConcealed t CT v) (FConcealed t CT w)
| sk_list A (T : typed A) val min max l m : lawful (ty_codec T) val ->
    Forall val l -> Forall val m ->
    (N.of_nat (length l) <= max)%N -> (N.of_nat (length m) <= max)%N -> (max < 2 ^ 64)%N ->
    same_kind (FList T min max l) (FList T min max m)
| sk_set A (T : typed A) val min max l m : lawful (ty_codec T) val ->
    Forall val l -> Forall val m ->
    (N.of_nat (length l) <= max)%N -> (N.of_nat (length m) <= max)%N -> (max < 2 ^ 64)%N ->
    same_kind (FSet T min max l) (FSet T min max m)
| sk_map K V (TK : typed K) (TV : typed V) vk vv min max l m :
    lawful (ty_codec TK) vk -> lawful (ty_codec TV) vv ->
    Forall (fun p => vk (fst p) /\ vv (snd p)) l -> Forall (fun p => vk (fst p) /\ vv (snd p)) m ->
    (N.of_nat (length l) <= max)%N -> (N.of_nat (length m) <= max)%N -> (max < 2 ^ 64)%N ->
    same_kind (FMap TK TV min max l) (FMap TK TV min max m).

(** Strings hashed by the Merkle fields of a sequence. *)
Inductive fields_hashed {H : Hasher} : list field -> list (list byte) -> Prop :=
| fh_nil : fields_hashed [] []
| fh_merkle t ls fs L Ls : root_hashed ls L -> fields_hashed fs Ls ->
    fields_hashed (FMerkle t ls :: fs) (L ++ Ls)
| fh_other f fs Ls : (forall t ls, f <> FMerkle t ls) -> fields_hashed fs Ls ->
    fields_hashed (f :: fs) Ls.
