(** commit_verify/src/commit.rs, embed.rs, convolve.rs: the default methods of the
    commitment-scheme traits, for every implementation of the required ones; and the
    TryCommitVerify implementation of mpc/tree.rs. *)
From Verif Require Import Base OrdMap Strict Digest Merkle MpcAtoms MpcTree.
Local Open Scope nat_scope.

(** commit.rs:26-34 *)
Inductive verify_error : Set := InvalidCommitment | InvalidMessage.

(** commit.rs:36-55 [CommitVerify<Msg, Protocol>]: required [commit] and [Eq]. *)
Record commit_verify (Msg Cmt : Type) : Type := CommitVerify {
  cv_commit : Msg -> Cmt;
  cv_eq : Cmt -> Cmt -> bool
}.
Arguments cv_commit {Msg Cmt}.
Arguments cv_eq {Msg Cmt}.

(** commit.rs:49-54 *)
Definition cv_verify {Msg Cmt} (I : commit_verify Msg Cmt) (self : Cmt) (msg : Msg)
  : result unit verify_error :=
  match cv_eq I (cv_commit I msg) self with
  | false => Err InvalidCommitment
  | true => Ok tt
  end.

(** commit.rs:57-79 [TryCommitVerify<Msg, Protocol>]; [try_commit] may panic. *)
Record try_commit_verify (Msg Cmt E : Type) : Type := TryCommitVerify {
  tv_try_commit : Msg -> outcome (result Cmt E);
  tv_eq : Cmt -> Cmt -> bool
}.
Arguments TryCommitVerify {Msg Cmt E}.
Arguments tv_try_commit {Msg Cmt E}.
Arguments tv_eq {Msg Cmt E}.

(** commit.rs:71-77 *)
Definition tv_verify {Msg Cmt E} (I : try_commit_verify Msg Cmt E) (self : Cmt) (msg : Msg)
  : outcome (result unit verify_error) :=
  r <- tv_try_commit I msg ;;
  Ret (match r with
       | Err _ => Err InvalidMessage
       | Ok other => if negb (tv_eq I other self) then Err InvalidCommitment else Ok tt
       end).

(** mpc/tree.rs:40-64: derived PartialEq of MerkleTree (and of its fields). *)
Definition pair_eqb {A B} (ea : A -> A -> bool) (eb : B -> B -> bool) (x y : A * B) : bool :=
  ea (fst x) (fst y) && eb (snd x) (snd y).
Fixpoint list_eqb {A} (e : A -> A -> bool) (x y : list A) : bool :=
  match x, y with
  | [], [] => true
  | a :: x', b :: y' => e a b && list_eqb e x' y'
  | _, _ => false
  end.
Definition method_eqb (a b : method) : bool := match a, b with Sha256t, Sha256t => true end.
Definition merkle_tree_eqb (a b : merkle_tree) : bool :=
  method_eqb (mt_method a) (mt_method b) && Nat.eqb (mt_depth a) (mt_depth b)
  && N.eqb (mt_entropy a) (mt_entropy b) && N.eqb (mt_cofactor a) (mt_cofactor b)
  && list_eqb (pair_eqb b32_eqb b32_eqb) (mt_messages a) (mt_messages b)
  && list_eqb (pair_eqb N.eqb (pair_eqb b32_eqb b32_eqb)) (mt_map a) (mt_map b).

(** mpc/tree.rs:122-126 [impl TryCommitVerify<MultiSource, UntaggedProtocol> for MerkleTree];
    [rng] is what the random generator would deliver in this call. *)
Definition tv_merkle_tree {H : Hasher} (rng : option N)
  : try_commit_verify multi_source merkle_tree commit_error :=
  TryCommitVerify (fun src => try_commit src rng) merkle_tree_eqb.

(** embed.rs:26-46 *)
Inductive embed_verify_error (E : Type) : Type :=
| EvCommitmentMismatch
| EvInvalidMessage (e : E)
| EvInvalidProof
| EvProofMismatch.
Arguments EvCommitmentMismatch {E}.
Arguments EvInvalidMessage {E}.
Arguments EvInvalidProof {E}.
Arguments EvProofMismatch {E}.

(** embed.rs:62-80, 126-150: an implementation of EmbedCommitVerify and of its proof type.
    [embed_commit(&mut self)] returns the mutated container with the proof; on error the
    container is dropped by [verify]. The [verify_eq]s are embed.rs:48-60. *)
Record embed_scheme (Msg Cont Proof E : Type) : Type := EmbedScheme {
  em_commit : Cont -> Msg -> result (Cont * Proof) E;
  em_restore : Proof -> Cont -> result Cont (embed_verify_error E);
  em_cont_eq : Cont -> Cont -> bool;
  em_proof_eq : Proof -> Proof -> bool
}.
Arguments EmbedScheme {Msg Cont Proof E}.
Arguments em_commit {Msg Cont Proof E}.
Arguments em_restore {Msg Cont Proof E}.
Arguments em_cont_eq {Msg Cont Proof E}.
Arguments em_proof_eq {Msg Cont Proof E}.

(** embed.rs:160-180 [EmbedCommitVerify::verify] *)
Definition em_verify {Msg Cont Proof E} (I : embed_scheme Msg Cont Proof E)
    (self : Cont) (msg : Msg) (proof : Proof) : result unit (embed_verify_error E) :=
  match em_restore I proof self with
  | Err e => Err e
  | Ok container =>
      match em_commit I container msg with
      | Err e => Err (EvInvalidMessage e)
      | Ok (container', proof') =>
          if negb (em_proof_eq I proof' proof) then Err EvInvalidProof
          else if negb (em_cont_eq I self container') then Err EvCommitmentMismatch
          else Ok tt
      end
  end.

(** embed.rs:316-345: the DummyVec/DummyProof implementation of the test module (the
    confinement limit of SmallBlob, 65535 bytes, is not modelled). *)
Definition dummy_embed : embed_scheme (list byte) (list byte) (list byte) unit :=
  EmbedScheme (fun c m => Ok (c ++ m, c)) (fun p _ => Ok p) bytes_eqb bytes_eqb.

(** convolve.rs:26-40 *)
Inductive convolve_verify_error : Set :=
| CvCommitmentMismatch | CvImpossibleMessage | CvInvalidProof.

(** convolve.rs:42-57, 165-195: an implementation of ConvolveCommit and of its proof type. *)
Record convolve_scheme (Msg Src Suppl Cmt Proof E : Type) : Type := ConvolveScheme {
  cc_commit : Src -> Suppl -> Msg -> result (Cmt * Proof) E;
  cc_restore : Proof -> Cmt -> Src;
  cc_suppl : Proof -> Suppl;
  cc_cmt_eq : Cmt -> Cmt -> bool;
  cc_proof_eq : Proof -> Proof -> bool
}.
Arguments ConvolveScheme {Msg Src Suppl Cmt Proof E}.
Arguments cc_commit {Msg Src Suppl Cmt Proof E}.
Arguments cc_restore {Msg Src Suppl Cmt Proof E}.
Arguments cc_suppl {Msg Src Suppl Cmt Proof E}.
Arguments cc_cmt_eq {Msg Src Suppl Cmt Proof E}.
Arguments cc_proof_eq {Msg Src Suppl Cmt Proof E}.

(** convolve.rs:70-91 [ConvolveCommitProof::verify]; [self] is the proof. *)
Definition cc_verify {Msg Src Suppl Cmt Proof E} (I : convolve_scheme Msg Src Suppl Cmt Proof E)
    (self : Proof) (msg : Msg) (commitment : Cmt) : result unit convolve_verify_error :=
  let original := cc_restore I self commitment in
  let suppl := cc_suppl I self in
  match cc_commit I original suppl msg with
  | Err _ => Err CvImpossibleMessage
  | Ok (commitment', proof) =>
      if negb (cc_proof_eq I self proof) then Err CvInvalidProof
      else if negb (cc_cmt_eq I commitment commitment') then Err CvCommitmentMismatch
      else Ok tt
  end.

(** embed.rs:347-373: the convolve-commit implementation of the test module; U32 is
    2^32-1, hence the length prefix has four bytes and [input_with_len] does not panic. *)
Definition dummy_convolve {H : Hasher}
  : convolve_scheme (list byte) (list byte) bytes32 bytes32 bytes32 unit :=
  ConvolveScheme
    (fun _ (suppl : bytes32) msg =>
       match input_with_len 0xFFFFFFFF (input_raw [] suppl) msg with
       | Ret e => Ok (digest_finish e, suppl)
       | Panic _ => Err tt
       end)
    (fun _ _ => []) (fun p => p) b32_eqb b32_eqb.
