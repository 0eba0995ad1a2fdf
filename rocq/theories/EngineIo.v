(** commit_verify/src/id.rs with encoders that may fail, and the attribute parsing of the
    CommitEncode derive macro (commit_verify/derive/src/params.rs, derive.rs, lib.rs). *)
From Verif Require Import Base Strict Digest Merkle Engine.
Local Open Scope nat_scope.

(** What [value.strict_write(writer)] does: the bytes that reached the hasher before it
    returned, and whether it returned Ok. An encoder is any function giving this;
    the [StreamWriter] passes bytes on to the hasher (crate outside /repo). *)
Definition io : Set := (list byte * bool)%type.

(** id.rs:75-80 [inner_commit_to] *)
Definition inner_commit_io (md : mode) (e : engine) (w : io) : outcome engine :=
  debug_assert md (negb (en_finished e)) ;;;
  let e' := Engine (en_finished e) (input_raw (en_hasher e) (fst w)) (en_layout e) in
  debug_assert md (snd w) ;;;
  Ret e'.

(** id.rs:82-100 [commit_to_serialized]; [w] is what writing the value does *)
Definition commit_to_serialized_io (md : mode) (t : strict_type) (w : io) (e : engine) : outcome engine :=
  f <- commitment_fqn t ;;
  debug_assert md (negb (String.eqb (fq_name f) (fq_name merkle_hash_fqn))
                   || negb (String.eqb (fq_lib f) (fq_lib merkle_hash_fqn))) ;;;
  debug_assert md (negb (String.eqb (fq_name f) (fq_name strict_hash_fqn))
                   || negb (String.eqb (fq_lib f) (fq_lib strict_hash_fqn))) ;;;
  e <- push_step e (StSerialized f) ;;
  inner_commit_io md e w.

(** id.rs:102-109 [commit_to_option]; [w] is what writing the optional value does *)
Definition commit_to_option_io (md : mode) (t : strict_type) (w : io) (e : engine) : outcome engine :=
  f <- commitment_fqn t ;;
  e <- push_step e (StSerialized f) ;;
  inner_commit_io md e w.

(** id.rs:134-146 [commit_to_concealed]; [w] is what writing the concealed value does *)
Definition commit_to_concealed_io (md : mode) (t : strict_type) (w : outcome io) (e : engine) : outcome engine :=
  f <- commitment_fqn t ;;
  e <- push_step e (StConcealed f) ;;
  w <- w ;;
  inner_commit_io md e w.

(** id.rs:148-196 [commit_to_linear_list], [.._set], [.._map]; [s] is the recorded step *)
Definition commit_to_linear_io (md : mode) (col : outcome commit_col_type) (min max : N) (t : strict_type) (w : io)
    (e : engine) : outcome engine :=
  c <- col ;;
  f <- commitment_fqn t ;;
  e <- push_step e (StCollection c (Sizing min max) f) ;;
  inner_commit_io md e w.

(** derive.rs:35-37, the strict strategy; [write v] is what writing [v] does *)
Definition ce_io {A} (tag : list byte) (idty t : strict_type) (write : A -> io) : commit_encode A :=
  CommitEncode tag idty (fun md v e => commit_to_serialized_io md t (write v) e).

(** ** lib.rs:134-185: serde of ReservedBytes *)

(** What a deserializer offers to the visitor: unit, none, or anything else. *)
Inductive serde_value : Set := SerdeUnit | SerdeNone | SerdeOther.
(** lib.rs:143-149 *)
Definition reserved_serialize (v : list byte) : serde_value := SerdeUnit.
(** lib.rs:151-182; values for which the visitor has no method are refused with a type error *)
Definition reserved_deserialize (len : nat) (val : byte) (x : serde_value) : result (list byte) unit :=
  match x with
  | SerdeUnit | SerdeNone => Ok (reserved_default len val)
  | SerdeOther => Err tt
  end.

(** ** derive/src/params.rs *)

(** params.rs:28-33: names of arguments *)
Definition attr_crate : string := "crate".
Definition attr_id : string := "id".
Definition attr_strategy : string := "strategy".

(** params.rs:44-51 *)
Inductive strategy_attr : Set := StrategyStrict | StrategyConceal | StrategyTransparent | StrategyMerklize.

(** params.rs:38-42; a path is the text of its tokens *)
Record container_attr : Set := ContainerAttr {
  ca_crate : string;
  ca_strategy : strategy_attr;
  ca_id : string
}.

(** Errors: of [check] (missing, unknown or repeated argument; amplify_syn, outside /repo) and of
    the strategy. *)
Inductive attr_error : Set := AttrMissing (name : string) | AttrUnknown (name : string) | AttrRepeated (name : string)
| AttrStrategy (value : string).

(** params.rs:53-73 *)
Definition strategy_of (path : string) : result strategy_attr attr_error :=
  if String.eqb path "strict" then Ok StrategyStrict
  else if String.eqb path "conceal" then Ok StrategyConceal
  else if String.eqb path "transparent" then Ok StrategyTransparent
  else if String.eqb path "merklize" then Ok StrategyMerklize
  else Err (AttrStrategy path).

(** [params.arg_value(name)]: the value of an argument *)
Fixpoint arg_value (name : string) (args : list (string * string)) : option string :=
  match args with
  | [] => None
  | (k, v) :: r => if String.eqb k name then Some v else arg_value name r
  end.

(** [ParametrizedAttr] refuses repeated arguments when merging, [check] refuses arguments not
    in the requirements (params.rs:79-84) and asks for the required ones. Which of several errors
    is reported first is not modelled. *)
Fixpoint check_known (args : list (string * string)) : result unit attr_error :=
  match args with
  | [] => Ok tt
  | (k, _) :: r =>
      if (String.eqb k attr_crate || String.eqb k attr_id || String.eqb k attr_strategy)%bool then
        match arg_value k r with
        | Some _ => Err (AttrRepeated k)
        | None => check_known r
        end
      else Err (AttrUnknown k)
  end.

(** params.rs:75-99 *)
Definition container_of (args : list (string * string)) : result container_attr attr_error :=
  match check_known args with
  | Err e => Err e
  | Ok _ =>
      match arg_value attr_id args, arg_value attr_strategy args with
      | None, _ => Err (AttrMissing attr_id)
      | _, None => Err (AttrMissing attr_strategy)
      | Some id, Some path =>
          match strategy_of path with
          | Err e => Err e
          | Ok s => Ok (ContainerAttr (match arg_value attr_crate args with
                                       | Some c => c
                                       | None => "commit_verify"
                                       end) s id)
          end
      end
  end.

(** What the type provides to the generated code, for each strategy that needs it:
    its encoding, its Conceal instances, its Wrapper instance, its MerkleLeaves instance. *)
Record derive_input (A : Type) : Type := DeriveInput {
  di_self : typed A;
  di_inner_ty : Type;
  di_inner : typed di_inner_ty;
  di_as_inner : A -> di_inner_ty;
  di_conc_ty : Type;
  di_conceal : mode -> A -> outcome di_conc_ty;
  di_conc_name : strict_type;
  di_conc2_ty : Type;
  di_conceal2 : mode -> di_conc_ty -> outcome di_conc2_ty;
  di_conc2_codec : codec di_conc2_ty;
  di_leaf : strict_type;
  di_leaves : A -> list bytes32
}.
Arguments DeriveInput {A}.

(** derive.rs:28-61 [derive_encode], lib.rs:68-74; [ids] resolves the path given as [id] to the type and its tag *)
Definition derive_encode {H : Hasher} {A} (D : derive_input A) (ids : string -> strict_type * list byte) (args : list (string * string))
  : result (commit_encode A) attr_error :=
  match container_of args with
  | Err e => Err e
  | Ok c =>
      let '(idty, tag) := ids (ca_id c) in
      Ok match ca_strategy c with
         | StrategyStrict => derive_strict tag idty (di_self A D)
         | StrategyConceal => derive_conceal tag idty (di_conceal A D) (di_conc_name A D) (di_conceal2 A D) (di_conc2_codec A D)
         | StrategyTransparent => derive_transparent tag idty (di_inner A D) (di_as_inner A D)
         | StrategyMerklize => derive_merklize tag idty (di_leaf A D) (di_leaves A D)
         end
  end.
