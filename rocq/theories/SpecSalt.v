(** Specification: values with a secret part, of which only the commitment ids become known. *)
From Verif Require Import Base Strict Engine SpecHash SpecCodec SpecEngine SpecGame SpecIdGame.
Local Open Scope nat_scope.

(** A value of any type with an implementation of CommitEncode, for each choice of its secret. *)
Record secret_value := SecretValue {
  sv_type : Type;
  sv_commit : Hasher -> commit_encode sv_type;
  sv_value : N -> sv_type
}.

(** With every secret below [S] the value has an id and commits to bytes which are the same for all hash functions;
    different secrets give different bytes. *)
Definition salted_by (n : nat) (md : mode) (S : N) (v : secret_value) (tag : list byte) (bytes : N -> list byte) : Prop :=
  length tag < 64 /\
  (exists fields, (forall H, feeds_fields H tag fields (sv_commit v H)) /\
     forall e, (e < S)%N -> length (bytes e) + 64 <= n /\
       (forall H, exists bs, Forall2 (@feeds H) (fields (sv_value v e)) bs /\ concat bs = bytes e) /\
       (forall H, exists id, @commit_id H _ md (sv_commit v H) (sv_value v e) = Ret id)) /\
  forall e e', (e < S)%N -> (e' < S)%N -> bytes e = bytes e' -> e = e'.
Definition salted (n : nat) (md : mode) (S : N) (v : secret_value) : Prop := exists tag bytes, salted_by n md S v tag bytes.

(** The ids of the values with these secrets *)
Inductive ids_with (H : Hasher) (md : mode) : list secret_value -> list N -> list bytes32 -> Prop :=
| iw_nil : ids_with H md [] [] []
| iw_cons v vs e es id ids : @commit_id H _ md (sv_commit v H) (sv_value v e) = Ret id -> ids_with H md vs es ids ->
    ids_with H md (v :: vs) (e :: es) (id :: ids).

(** The adversary answers "yes" to the ids of the values; the secrets and the answers of the hash function are [ef]. *)
Definition guesses_ids (U : list (list byte)) (md : mode) (S : N) (vs : list secret_value) (A : list bytes32 -> prog bool)
  (ef : list N * list bytes32) : Prop :=
  let '(es, f) := ef in
  length f = length U /\ Forall (fun e => (e < S)%N) es /\
  exists ids, ids_with (table U f) md vs es ids /\ exec (table U f) (A ids) = true.

(** The adversary answers "yes" to [r] values which have nothing to do with anything. *)
Definition guesses_noise (U : list (list byte)) (r : nat) (A : list bytes32 -> prog bool) (cf : list bytes32 * list bytes32) : Prop :=
  let '(cs, f) := cf in length cs = r /\ length f = length U /\ exec (table U f) (A cs) = true.
