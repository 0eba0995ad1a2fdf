(** commit_verify/src/id.rs, the CommitEncode derive macro
    (commit_verify/derive/src/derive.rs) and ReservedBytes (commit_verify/src/lib.rs). *)
From Verif Require Import Base OrdMap Strict Merkle MpcAtoms MpcTree MpcBlock Digest.
Local Open Scope nat_scope.

(** strict_types::TypeFqn: library and type name (crate outside /repo). *)
Record type_fqn : Set := Fqn { fq_lib : string; fq_name : string }.

(** What [T: StrictType] provides here: STRICT_LIB_NAME and strict_name(). *)
Record strict_type : Set := SType { st_lib : string; st_name : option string }.

(** A strictly encodable type: its names and its encoding. *)
Record typed (A : Type) : Type := Typed { ty : strict_type; ty_codec : codec A }.
Arguments Typed {A}.
Arguments ty {A}.
Arguments ty_codec {A}.

(** strict_encoding::Sizing *)
Record sizing : Set := Sizing { sz_min : N; sz_max : N }.

(** id.rs:36-41 *)
Inductive commit_col_type : Set := ColList | ColSet | ColMap (key : type_fqn).

(** id.rs:43-50 *)
Inductive commit_step : Set :=
| StSerialized (f : type_fqn)
| StCollection (c : commit_col_type) (s : sizing) (f : type_fqn)
| StHashed (f : type_fqn)
| StMerklized (f : type_fqn)
| StConcealed (f : type_fqn).

(** id.rs:52-57 *)
Record engine : Set := Engine {
  en_finished : bool;
  en_hasher : sha_engine;
  en_layout : list commit_step
}.

(** lib.rs: LIB_NAME_COMMIT_VERIFY = "CommitVerify" *)
Definition lib_commit_verify : string := "CommitVerify".
Definition merkle_hash_fqn : type_fqn := Fqn lib_commit_verify "MerkleHash".
Definition strict_hash_fqn : type_fqn := Fqn lib_commit_verify "StrictHash".

(** id.rs:59-64 [commitment_fqn]. [libname!] on an ill-formed library name is not modelled:
    STRICT_LIB_NAME constants are identifiers. *)
Definition commitment_fqn (t : strict_type) : outcome type_fqn :=
  match st_name t with
  | Some n => Ret (Fqn (st_lib t) n)
  | None => Panic PExpect
  end.

(** [TinyVec::push] followed by [expect]: at most 255 elements. *)
Definition push_step (e : engine) (s : commit_step) : outcome engine :=
  if length (en_layout e) <? 255 then
    Ret (Engine (en_finished e) (en_hasher e) (en_layout e ++ [s]))
  else Panic PExpect.

(** id.rs:75-80 [inner_commit_to]. Writing into a hasher does not fail, and the
    values are shorter than MAX_LEN (2^64-1, or 32 for 32-byte values), so [ok] is true. *)
Definition inner_commit_to (md : mode) (e : engine) (bytes : list byte) : outcome engine :=
  debug_assert md (negb (en_finished e)) ;;;
  Ret (Engine (en_finished e) (input_raw (en_hasher e) bytes) (en_layout e)).

(** Bytes of the length prefix for a collection of at most [max] items
    (strict_encoding writes u8/u16/u24/u32/u64 depending on MAX). *)
Definition prefix_len (max : N) : nat :=
  if (max <=? 0xFF)%N then 1
  else if (max <=? 0xFFFF)%N then 2
  else if (max <=? 0xFFFFFF)%N then 3
  else if (max <=? 0xFFFFFFFF)%N then 4
  else 8.

Section Calls.
Context {H : Hasher}.

(** id.rs:67-73 [CommitEngine::new] *)
Definition engine_new (tag : list byte) : engine := Engine false (from_tag tag) [].

(** id.rs:82-100. The first two asserts name MerkleHash and StrictHash. *)
Definition commit_to_serialized {A} (md : mode) (T : typed A) (v : A) (e : engine) : outcome engine :=
  f <- commitment_fqn (ty T) ;;
  debug_assert md (negb (String.eqb (fq_name f) (fq_name merkle_hash_fqn))
                   || negb (String.eqb (fq_lib f) (fq_lib merkle_hash_fqn))) ;;;
  debug_assert md (negb (String.eqb (fq_name f) (fq_name strict_hash_fqn))
                   || negb (String.eqb (fq_lib f) (fq_lib strict_hash_fqn))) ;;;
  e <- push_step e (StSerialized f) ;;
  inner_commit_to md e (enc (ty_codec T) v).

(** id.rs:102-109 *)
Definition commit_to_option {A} (md : mode) (T : typed A) (v : option A) (e : engine) : outcome engine :=
  f <- commitment_fqn (ty T) ;;
  e <- push_step e (StSerialized f) ;;
  inner_commit_to md e (enc (c_option (ty_codec T)) v).

(** id.rs:111-121; [id] is [value.commit_id()], computed by the value's own CommitEncode
    (it may panic, see below). *)
Definition commit_to_hash (md : mode) (t : strict_type) (id : outcome bytes32) (e : engine) : outcome engine :=
  f <- commitment_fqn t ;;
  e <- push_step e (StHashed f) ;;
  h <- id ;;
  inner_commit_to md e (enc c_b32 h).

(** id.rs:123-132; [t] is the leaf type, [leaves] the commit ids of the leaves *)
Definition commit_to_merkle (md : mode) (t : strict_type) (leaves : list bytes32) (e : engine) : outcome engine :=
  f <- commitment_fqn t ;;
  e <- push_step e (StMerklized f) ;;
  root <- merklize leaves ;;
  inner_commit_to md e (enc c_b32 root).

(** id.rs:134-146; [t] is the type of the value, [concealed] the result of
    [value.conceal()] (which may panic). *)
Definition commit_to_concealed {C} (md : mode) (t : strict_type) (CT : codec C)
    (concealed : outcome C) (e : engine) : outcome engine :=
  f <- commitment_fqn t ;;
  e <- push_step e (StConcealed f) ;;
  c <- concealed ;;
  inner_commit_to md e (enc CT c).

(** id.rs:148-161 *)
Definition commit_to_linear_list {A} (md : mode) (T : typed A) (min max : N) (l : list A) (e : engine)
  : outcome engine :=
  f <- commitment_fqn (ty T) ;;
  e <- push_step e (StCollection ColList (Sizing min max) f) ;;
  inner_commit_to md e (enc (c_vec (prefix_len max) min max (ty_codec T)) l).

(** id.rs:163-176. A BTreeSet is the list of its elements in order; it is encoded as a
    vector. *)
Definition commit_to_linear_set {A} (md : mode) (T : typed A) (min max : N) (l : list A) (e : engine)
  : outcome engine :=
  f <- commitment_fqn (ty T) ;;
  e <- push_step e (StCollection ColSet (Sizing min max) f) ;;
  inner_commit_to md e (enc (c_vec (prefix_len max) min max (ty_codec T)) l).

(** id.rs:178-196. A BTreeMap is the list of its entries in key order. *)
Definition commit_to_linear_map {K V} (md : mode) (TK : typed K) (TV : typed V) (min max : N)
    (l : list (K * V)) (e : engine) : outcome engine :=
  k <- commitment_fqn (ty TK) ;;
  f <- commitment_fqn (ty TV) ;;
  e <- push_step e (StCollection (ColMap k) (Sizing min max) f) ;;
  inner_commit_to md e (enc (c_vec (prefix_len max) min max (c_pair (ty_codec TK) (ty_codec TV))) l).

(** id.rs:198-201 [as_layout] (also marks the engine finished) *)
Definition as_layout (e : engine) : list commit_step * engine :=
  (en_layout e, Engine true (en_hasher e) (en_layout e)).
(** id.rs:203 *)
Definition into_layout (e : engine) : list commit_step := en_layout e.
(** id.rs:205 *)
Definition set_finished (e : engine) : engine := Engine true (en_hasher e) (en_layout e).
(** id.rs:207 *)
Definition engine_finish (e : engine) : sha_engine := en_hasher e.
(** id.rs:209 *)
Definition finish_layout (e : engine) : sha_engine * list commit_step := (en_hasher e, en_layout e).

(** id.rs:212-219, 233-235: an implementation of CommitEncode with its CommitmentId. *)
Record commit_encode (A : Type) : Type := CommitEncode {
  ce_tag : list byte;                                  (* CommitmentId::TAG *)
  ce_idty : strict_type;                               (* the CommitmentId type *)
  ce_encode : mode -> A -> engine -> outcome engine    (* commit_encode *)
}.
Arguments CommitEncode {A}.
Arguments ce_tag {A}.
Arguments ce_idty {A}.
Arguments ce_encode {A}.

(** id.rs:278-284 [CommitId::commit] *)
Definition commit {A} (md : mode) (I : commit_encode A) (v : A) : outcome engine :=
  e <- ce_encode I md v (engine_new (ce_tag I)) ;;
  Ret (set_finished e).

(** id.rs:286 [CommitId::commit_id] *)
Definition commit_id {A} (md : mode) (I : commit_encode A) (v : A) : outcome bytes32 :=
  e <- commit md I v ;; Ret (digest_finish (engine_finish e)).

(** id.rs:221-227 *)
Record commit_layout : Set := CommitLayout {
  cl_idty : type_fqn;
  cl_tag : list byte;
  cl_fields : list commit_step
}.

(** id.rs:237-259 [CommitmentLayout::commitment_layout]; [dumb] is [strict_dumb()]. *)
Definition commitment_layout {A} (md : mode) (I : commit_encode A) (dumb : A) : outcome commit_layout :=
  e <- commit md I dumb ;;
  f <- commitment_fqn (ce_idty I) ;;
  Ret (CommitLayout f (ce_tag I) (into_layout e)).

(** ** derive.rs:34-49: the four strategies *)

(** derive.rs:35-37 *)
Definition derive_strict {A} (tag : list byte) (idty : strict_type) (T : typed A) : commit_encode A :=
  CommitEncode tag idty (fun md v e => commit_to_serialized md T v e).

(** derive.rs:38-41: [engine.commit_to_concealed(&self.conceal())]; [conceal1] is the
    Conceal instance of the type, [conceal2] that of the concealed type (named [t2]),
    whose result is encoded by [CT]. *)
Definition derive_conceal {A B C} (tag : list byte) (idty : strict_type)
    (conceal1 : mode -> A -> outcome B) (t2 : strict_type) (conceal2 : mode -> B -> outcome C)
    (CT : codec C) : commit_encode A :=
  CommitEncode tag idty (fun md v e =>
    b <- conceal1 md v ;;
    commit_to_concealed md t2 CT (conceal2 md b) e).

(** derive.rs:42-45; [inner] is Wrapper::as_inner *)
Definition derive_transparent {A B} (tag : list byte) (idty : strict_type) (T : typed B) (inner : A -> B)
  : commit_encode A :=
  CommitEncode tag idty (fun md v e => commit_to_serialized md T (inner v) e).

(** derive.rs:46-48; [leaves] gives the commit ids of merkle_leaves() in order *)
Definition derive_merklize {A} (tag : list byte) (idty : strict_type) (leaf_ty : strict_type)
    (leaves : A -> list bytes32) : commit_encode A :=
  CommitEncode tag idty (fun md v e => commit_to_merkle md leaf_ty (leaves v) e).

(** ** The CommitEncode implementations in the crate *)

Definition named (n : string) : strict_type := SType lib_commit_verify (Some n).

(** merkle.rs:53-58 *)
Definition ce_merkle_node : commit_encode merkle_node :=
  derive_strict merkle_tag (named "MerkleHash") (Typed (named "MerkleNode") c_merkle_node).
(** mpc/atoms.rs:88-92 *)
Definition ce_leaf : commit_encode leaf :=
  derive_strict merkle_tag (named "MerkleHash") (Typed (named "Leaf") c_leaf).
(** mpc/block.rs:128-134 *)
Definition ce_concealed : commit_encode merkle_concealed :=
  derive_strict commitment_tag (named "Commitment") (Typed (named "MerkleConcealed") c_merkle_concealed).
(** mpc/block.rs:153-159, 641-660; the concealed type conceals to itself (146-150) *)
Definition ce_block : commit_encode merkle_block :=
  derive_conceal commitment_tag (named "Commitment") block_conceal
    (named "MerkleConcealed") (fun _ c => Ret c) c_merkle_concealed.
(** mpc/tree.rs:41-46, 85-89 *)
Definition ce_tree : commit_encode merkle_tree :=
  derive_conceal commitment_tag (named "Commitment") tree_conceal
    (named "MerkleConcealed") (fun _ c => Ret c) c_merkle_concealed.

(** ** lib.rs:90-133 ReservedBytes<LEN, VAL> *)

(** id.rs:301-303 StrictHash::TAG *)
Definition strict_hash_tag : list byte := str "urn:ubideco:strict-types:value-hash#2024-02-10".

(** lib.rs:97-99: the value is the inner array. *)
Definition reserved_default (len : nat) (val : byte) : list byte := repeat val len.

(** lib.rs:101-106; [value]: an array of [len] bytes *)
Definition reserved_from (len : nat) (val : byte) (value : list byte) : outcome (list byte) :=
  assert (bytes_eqb value (repeat val len)) ;;; Ret value.

(** lib.rs:92-95 (derived StrictEncode: the array's bytes) and 119-132 *)
Definition c_reserved (len : nat) (val : byte) : codec (list byte) :=
  Codec (fun a => a)
        (fun l => match take len l with
                  | Some (a, r) =>
                      if bytes_eqb a (reserved_default len val) then Some (a, r) else None
                  | None => None
                  end).

(** lib.rs:113-117 *)
Definition ce_reserved (len : nat) (val : byte) : commit_encode (list byte) :=
  CommitEncode strict_hash_tag (named "StrictHash")
    (fun md v e => commit_to_serialized md (Typed (named "ReservedBytes") (c_reserved len val)) v e).

End Calls.
Arguments CommitEncode {A}.
Arguments ce_tag {A}.
Arguments ce_idty {A}.
Arguments ce_encode {A}.
