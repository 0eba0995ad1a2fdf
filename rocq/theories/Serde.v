(** The serde implementations derived under the feature "serde" (block.rs:49,80,133,158,670; atoms.rs:37,55,75,127;
    id.rs:293; merkle.rs:109; convolve.rs:29; api.rs:136; single_use_seals/src/lib.rs:226-231).

    The derives are outside /repo (serde_derive); they are modelled from the documentation of serde, for a self-describing,
    human-readable format such as JSON. A document is a tree of values; its text is not modelled. Keys are strings. Errors
    are not told apart, so that it does not matter that the derived code reads the members while it visits them. *)
From Coq Require Import Ascii.
From Verif Require Import Base MpcAtoms MpcTree MpcBlock Schemes Api Text.
Local Open Scope string_scope.

(** Values of the format; [JOther] stands for booleans, negative and fractional numbers. *)
Inductive doc : Set :=
| JNull
| JNum (n : N)
| JText (s : string)
| JList (l : list doc)
| JMap (es : list (string * doc))
| JOther.

(** ** Names: serde(rename_all = "camelCase") *)

(** Names of variants: the first letter in lower case *)
Definition lower_first (a : ascii) : ascii :=
  let n := N_of_ascii a in if ((65 <=? n) && (n <=? 90))%N then ascii_of_N (n + 32) else a.
Definition camel_variant (s : string) : string := match s with "" => "" | String a r => String (lower_first a) r end.
(** Names of fields: letters after an underscore in upper case, underscores dropped *)
Definition upper_letter (a : ascii) : ascii :=
  let n := N_of_ascii a in if ((97 <=? n) && (n <=? 122))%N then ascii_of_N (n - 32) else a.
Fixpoint camel_rest (up : bool) (s : string) : string :=
  match s with
  | "" => ""
  | String a r => if (N_of_ascii a =? 95)%N then camel_rest true r else String (if up then upper_letter a else a) (camel_rest false r)
  end.
Definition camel_field (s : string) : string := camel_rest false s.

(** ** Structures *)

(** serialize_struct: the members in the order of declaration *)
Definition write_struct (names : list string) (vals : list doc) : doc := JMap (combine names vals).
(** The loop of the derived visit_map: one variable per field; a second value for a field is an error, members with other
    names are skipped. *)
Fixpoint put_field (names : list string) (slots : list (option doc)) (k : string) (v : doc) : option (list (option doc)) :=
  match names, slots with
  | n :: ns, s :: ss =>
      if String.eqb n k then match s with Some _ => None | None => Some (Some v :: ss)%list end
      else option_map (cons s) (put_field ns ss k v)
  | _, _ => Some slots
  end.
Fixpoint visit_map (names : list string) (slots : list (option doc)) (es : list (string * doc)) : option (list (option doc)) :=
  match es with
  | []%list => Some slots
  | ((k, v) :: r)%list => match put_field names slots k v with Some s => visit_map names s r | None => None end
  end.
(** deserialize_struct: visit_map for a map, visit_seq for a list (all members in order; more or fewer are errors) *)
Definition read_struct (names : list string) (d : doc) : option (list (option doc)) :=
  match d with
  | JMap es => visit_map names (map (fun _ => None) names) es
  | JList l => if (length l =? length names)%nat then Some (map Some l) else None
  | _ => None
  end.
(** A field which must be there *)
Definition need {A} (read : doc -> option A) (v : option doc) : option A := match v with Some d => read d | None => None end.
(** A field of type Option may be missing *)
Definition may {A} (read : doc -> option (option A)) (v : option doc) : option (option A) := match v with Some d => read d | None => Some None end.

(** ** Enumerations (externally named_variant): the name of a unit variant, or a map from the name of the variant to its content *)
Definition read_enum (d : doc) : option (string * option doc) :=
  match d with
  | JText s => Some (s, None)
  | JMap [(k, v)]%list => Some (k, Some v)
  | _ => None
  end.
Definition unit_content (v : option doc) : bool := match v with None | Some JNull => true | _ => false end.

(** ** Foreign types *)

(** Integers *)
Definition read_uint (bits : N) (d : doc) : option N := match d with JNum n => if (n <? 2 ^ bits)%N then Some n else None | _ => None end.
(** u5 (amplify): a wrapped u8. [ck]: whether foreign types check their bounds when they are read *)
Definition read_u5 (ck : bool) (d : doc) : option nat :=
  match d with JNum n => if ((n <? 256) && (negb ck || (n <? 32)))%N then Some (N.to_nat n) else None | _ => None end.
(** Vec, and Confined (amplify) around it *)
Fixpoint read_all {A} (read : doc -> option A) (l : list doc) : option (list A) :=
  match l with
  | []%list => Some []%list
  | (d :: r)%list => match read d, read_all read r with Some x, Some xs => Some (x :: xs)%list | _, _ => None end
  end.
Definition read_vec {A} (read : doc -> option A) (d : doc) : option (list A) := match d with JList l => read_all read l | _ => None end.
Definition read_confined {A} (ck : bool) (lo hi : N) (read : doc -> option A) (d : doc) : option (list A) :=
  match read_vec read d with
  | Some l => if (negb ck || ((lo <=? N.of_nat (length l)) && (N.of_nat (length l) <=? hi)))%N then Some l else None
  | None => None
  end.
(** Option *)
Definition read_option {A} (read : doc -> option A) (d : doc) : option (option A) :=
  match d with JNull => Some None | _ => option_map Some (read d) end.
Definition write_option {A} (write : A -> doc) (v : option A) : doc := match v with Some x => write x | None => JNull end.

(** Bytes32 (amplify): hexadecimal in human-readable formats; all ids are transparent wrappers of it (atoms.rs:55,75,127;
    id.rs:293; merkle.rs:109) *)
Definition write_id (x : bytes32) : doc := JText (id_text x).
Definition read_id (d : doc) : option bytes32 := match d with JText s => id_parse s | _ => None end.

(** ** The types of the crates *)

(** atoms.rs:37-43 *)
Definition method_name : string := camel_variant "Sha256t".
Definition write_method (m : method) : doc := match m with Sha256t => JText method_name end.
Definition read_method (d : doc) : option method :=
  match read_enum d with
  | Some (s, c) => if (String.eqb s method_name && unit_content c)%bool then Some Sha256t else None
  | None => None
  end.

(** convolve.rs:29-39 *)
Definition convolve_error_name (e : convolve_verify_error) : string :=
  camel_variant match e with CvCommitmentMismatch => "CommitmentMismatch" | CvImpossibleMessage => "ImpossibleMessage" | CvInvalidProof => "InvalidProof" end.
Definition write_convolve_error (e : convolve_verify_error) : doc := JText (convolve_error_name e).
Definition read_convolve_error (d : doc) : option convolve_verify_error :=
  match read_enum d with
  | Some (s, c) =>
      if unit_content c then
        if String.eqb s (convolve_error_name CvCommitmentMismatch) then Some CvCommitmentMismatch
        else if String.eqb s (convolve_error_name CvImpossibleMessage) then Some CvImpossibleMessage
        else if String.eqb s (convolve_error_name CvInvalidProof) then Some CvInvalidProof
        else None
      else None
  | None => None
  end.

(** block.rs:49-55 *)
Definition invalid_proof_fields : list string := map camel_field ["protocol_id"; "expected"; "actual"; "width"].
Definition write_invalid_proof (e : invalid_proof) : doc :=
  write_struct invalid_proof_fields [write_id (ip_protocol_id e); JNum (ip_expected e); JNum (ip_actual e); JNum (ip_width e)].
Definition read_invalid_proof (d : doc) : option invalid_proof :=
  match read_struct invalid_proof_fields d with
  | Some [p; e; a; w]%list =>
      match need read_id p, need (read_uint 32) e, need (read_uint 32) a, need (read_uint 32) w with
      | Some p, Some e, Some a, Some w => Some (InvalidProof p e a w)
      | _, _, _, _ => None
      end
  | _ => None
  end.

(** block.rs:80-97: no renaming *)
Definition concealed_fields : list string := ["depth"; "hash"].
Definition leaf_fields : list string := ["protocol_id"; "message"].
Definition write_tree_node (n : tree_node) : doc :=
  match n with
  | ConcealedNode d h => JMap [("ConcealedNode", write_struct concealed_fields [JNum (N.of_nat d); write_id h])]
  | CommitmentLeaf p m => JMap [("CommitmentLeaf", write_struct leaf_fields [write_id p; write_id m])]
  end.
Definition read_tree_node (ck : bool) (d : doc) : option tree_node :=
  match read_enum d with
  | Some (s, Some c) =>
      if String.eqb s "ConcealedNode" then
        match read_struct concealed_fields c with
        | Some [d; h]%list => match need (read_u5 ck) d, need read_id h with Some d, Some h => Some (ConcealedNode d h) | _, _ => None end
        | _ => None
        end
      else if String.eqb s "CommitmentLeaf" then
        match read_struct leaf_fields c with
        | Some [p; m]%list => match need read_id p, need read_id m with Some p, Some m => Some (CommitmentLeaf p m) | _, _ => None end
        | _ => None
        end
      else None
  | _ => None
  end.

(** block.rs:133-144 *)
Definition merkle_concealed_fields : list string := map camel_field ["depth"; "cofactor"; "merkle_root"].
Definition write_concealed (c : merkle_concealed) : doc :=
  write_struct merkle_concealed_fields [JNum (N.of_nat (mc_depth c)); JNum (mc_cofactor c); write_id (mc_merkle_root c)].
Definition read_concealed (ck : bool) (d : doc) : option merkle_concealed :=
  match read_struct merkle_concealed_fields d with
  | Some [d; c; r]%list =>
      match need (read_u5 ck) d, need (read_uint 16) c, need read_id r with
      | Some d, Some c, Some r => Some (MConcealed d c r)
      | _, _, _ => None
      end
  | _ => None
  end.

(** block.rs:158-180; the cross section is a NonEmptyVec<TreeNode, U32MAX> *)
Definition block_fields : list string := ["method"; "depth"; "cofactor"; "cross_section"; "entropy"].
Definition write_block (b : merkle_block) : doc :=
  write_struct block_fields [write_method (mb_method b); JNum (N.of_nat (mb_depth b)); JNum (mb_cofactor b);
    JList (map write_tree_node (mb_cross_section b)); write_option JNum (mb_entropy b)].
Definition read_block (ck : bool) (d : doc) : option merkle_block :=
  match read_struct block_fields d with
  | Some [m; d; c; x; e]%list =>
      match need read_method m, need (read_u5 ck) d, need (read_uint 16) c,
            need (read_confined ck 1 (2 ^ 32 - 1) (read_tree_node ck)) x, may (read_option (read_uint 64)) e with
      | Some m, Some d, Some c, Some x, Some e => Some (MBlock m d c x e)
      | _, _, _, _, _ => None
      end
  | _ => None
  end.

(** block.rs:670-691 *)
Definition proof_fields : list string := ["method"; "pos"; "cofactor"; "path"].
Definition write_proof (p : merkle_proof) : doc :=
  write_struct proof_fields [write_method (mp_method p); JNum (mp_pos p); JNum (mp_cofactor p); JList (map write_id (mp_path p))].
Definition read_proof (ck : bool) (d : doc) : option merkle_proof :=
  match read_struct proof_fields d with
  | Some [m; p; c; x]%list =>
      match need read_method m, need (read_uint 32) p, need (read_uint 16) c, need (read_confined ck 0 32 read_id) x with
      | Some m, Some p, Some c, Some x => Some (MProof m p c x)
      | _, _, _, _ => None
      end
  | _ => None
  end.

(** api.rs:136-165; the entries are of the types of the report *)
Definition status_fields : list string := ["seal_issues"; "failures"; "warnings"; "info"].
Definition write_status {A B C D} (wa : A -> doc) (wb : B -> doc) (wc : C -> doc) (wd : D -> doc) (s : @status A B C D) : doc :=
  write_struct status_fields [JList (map wa (seal_issues s)); JList (map wb (failures s));
    JList (map wc (warnings s)); JList (map wd (info s))].
Definition read_status {A B C D} (ra : doc -> option A) (rb : doc -> option B) (rc : doc -> option C) (rd : doc -> option D) (d : doc)
    : option (@status A B C D) :=
  match read_struct status_fields d with
  | Some [a; b; c; e]%list =>
      match need (read_vec ra) a, need (read_vec rb) b, need (read_vec rc) c, need (read_vec rd) e with
      | Some a, Some b, Some c, Some e => Some (Status a b c e)
      | _, _, _, _ => None
      end
  | _ => None
  end.

(** single_use_seals/src/lib.rs:226-239: the phantom field is skipped; a witness is the pair of its parts *)
Definition witness_fields : list string := ["published"; "client"].
Definition write_witness {P C} (wp : P -> doc) (wc : C -> doc) (w : P * C) : doc :=
  write_struct witness_fields [wp (fst w); wc (snd w)].
Definition read_witness {P C} (rp : doc -> option P) (rc : doc -> option C) (d : doc) : option (P * C) :=
  match read_struct witness_fields d with
  | Some [p; c]%list => match need rp p, need rc c with Some p, Some c => Some (p, c) | _, _ => None end
  | _ => None
  end.
