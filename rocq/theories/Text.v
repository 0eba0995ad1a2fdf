(** Texts: ids as hexadecimal numbers, messages of errors and verdicts.
    Texts of #[display(doc_comments)] types are the doc comments with the lines joined by a space and the values in
    place of the braces (amplify's Display derive); integers print in decimal, ids as lower-case hexadecimal. *)
From Coq Require Import String Ascii DecimalString DecimalN.
From Verif Require Import Base MpcAtoms MpcTree MpcBlock Schemes Api.
Local Open Scope string_scope.

(** Display of [Bytes32] (amplify), inherited by [ProtocolId], [Message], [Commitment], [MerkleHash] and
    [StrictHash] (atoms.rs:52,72,124; merkle.rs:107; id.rs:290: wrapper(Display)): two lower-case digits per byte. *)
Definition digit (n : N) : ascii := ascii_of_N (if n <? 10 then 48 + n else 87 + n)%N.
Fixpoint bytes_text (l : list byte) : string :=
  match l with
  | []%list => ""
  | (b :: r)%list => String (digit (Byte.to_N b / 16)%N) (String (digit (Byte.to_N b mod 16)%N) (bytes_text r))
  end.
Definition id_text (x : bytes32) : string := bytes_text (b32 x).

(** FromStr of the same types (wrapper(FromStr)): digits of either case, in pairs, exactly 32 bytes. *)
Definition digit_value (a : ascii) : option N :=
  let n := N_of_ascii a in
  if ((48 <=? n) && (n <=? 57))%N then Some (n - 48)%N
  else if ((97 <=? n) && (n <=? 102))%N then Some (n - 87)%N
  else if ((65 <=? n) && (n <=? 70))%N then Some (n - 55)%N
  else None.
Fixpoint bytes_parse (s : string) : option (list byte) :=
  match s with
  | "" => Some []%list
  | String a (String b r) =>
      match digit_value a, digit_value b, bytes_parse r with
      | Some h, Some l, Some bs => Some (byte_of_N (16 * h + l)%N :: bs)%list
      | _, _, _ => None
      end
  | String _ "" => None
  end.
Definition id_parse (s : string) : option bytes32 :=
  match bytes_parse s with Some l => b32_of l | None => None end.

(** Display of u32 and usize *)
Definition num_text (n : N) : string := NilZero.string_of_uint (N.to_uint n).

(** block.rs:38-42 *)
Definition leaf_not_known_text (p : bytes32) : string :=
  "commitment under protocol id " ++ id_text p ++ " is absent from the known part of a given LNPBP-4 Merkle block.".
(** block.rs:44-55 *)
Definition invalid_proof_text (e : invalid_proof) : string :=
  "the provided merkle proof protocol id " ++ id_text (ip_protocol_id e) ++ " position " ++ num_text (ip_actual e) ++
  " doesn't match the expected position " ++ num_text (ip_expected e) ++ " within the tree of width " ++
  num_text (ip_width e) ++ ".".
(** block.rs:57-71: display(inner) for the first variant *)
Definition merge_error_text (e : merge_error) : string :=
  match e with
  | MInvalidProof x => invalid_proof_text x
  | UnrelatedBlocks a b =>
      "attempt to merge two unrelated LNPBP-4 blocks with different Merkle roots (base " ++ id_text a ++
      ", merged-in " ++ id_text b ++ ")."
  end.
(** tree.rs:100-116 *)
Definition commit_error_text (e : commit_error) : string :=
  match e with
  | Empty => "can't create commitment for an empty message list and zero tree depth."
  | TooManyMessages n => "number of messages (" ++ num_text (N.of_nat n) ++
      ") for LNPBP-4 commitment which exceeds the protocol limit of 2^16"
  | CantFitInMaxSlots n => "the provided number of messages (" ++ num_text (N.of_nat n) ++
      ") can't fit LNPBP-4 commitment size limits for a given set of protocol ids."
  end.
(** commit.rs:26-34 *)
Definition verify_error_text (e : verify_error) : string :=
  match e with
  | InvalidCommitment => "commitment doesn't match the message."
  | InvalidMessage => "the message is invalid since a valid commitment to it can't be created."
  end.
(** embed.rs:26-47; an empty doc line starts a new paragraph *)
Definition embed_error_text {E} (show : E -> string) (e : embed_verify_error E) : string :=
  match e with
  | EvCommitmentMismatch => "commitment doesn't match the message."
  | EvInvalidMessage x => "the message is invalid since a valid commitment to it can't be created. Details: " ++ show x
  | EvInvalidProof => "the proof is invalid and the commitment can't be verified since the original container can't be restored from it."
  | EvProofMismatch => "the proof does not match to the proof generated for the same message during the verification."
  end.
(** convolve.rs:26-39 *)
Definition convolve_error_text (e : convolve_verify_error) : string :=
  match e with
  | CvCommitmentMismatch => "commitment doesn't match the message."
  | CvImpossibleMessage => "the message is invalid since a valid commitment to it can't be created."
  | CvInvalidProof => "the proof is invalid and the commitment can't be verified."
  end.
(** api.rs:46-54 *)
Definition validity_text (v : validity) : string :=
  match v with Valid => "valid" | SealIssues => "unresolved seal issues" | Invalid => "invalid" end.
