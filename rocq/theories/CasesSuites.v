(** Cases for the theorems about the suites. *)
From Verif Require Import Base BaseFacts OrdMap Strict Digest Merkle MpcAtoms MpcTree Schemes Suites Sha256.
From Verif Require Import SpecHash SpecMisc SpecSuites TheoremsMpc CasesMpc CasesMisc TheoremsSuites.
Local Open Scope nat_scope.

(** Commitments which are hashes, and which are only the first byte *)
Definition by_hash : commit_verify (list byte) bytes32 := CommitVerify _ _ (fun m => @HASH sha256 m) b32_eqb.
Definition by_head : commit_verify (list byte) byte := CommitVerify _ _ (fun m => hd x00 m) Byte.eqb.
Lemma by_head_decides : decides (cv_eq by_head).
Proof. intros a b. cbn. split; [apply Byte.byte_dec_bl|intros ->; apply Byte.byte_dec_lb; reflexivity]. Qed.
Lemma c96_commit_case : decides (cv_eq by_hash) /\ decides (cv_eq by_head) /\ decides bytes_eqb /\
  commit_verify_suite by_hash bytes_eqb gen_messages = Ret tt /\ commit_verify_suite by_head bytes_eqb gen_messages = Panic PAssert /\
  commit_verify_suite by_head bytes_eqb [[x01; x02]; [x02; x02]] = Ret tt /\ commit_verify_suite by_hash bytes_eqb [[x01]; [x01]] = Panic PAssert.
Proof.
  split; [intros a b; apply b32_eqb_eq|split; [exact by_head_decides|split; [exact bytes_decides|]]].
  repeat (split; [comp|]). comp.
Qed.
(** embed.rs:375-378 [test_embed_commit], and a scheme which appends one byte only *)
Definition head_embed : embed_scheme (list byte) (list byte) (list byte) unit :=
  EmbedScheme (fun c m => Ok (c ++ [hd x00 m], c)) (fun p _ => Ok p) bytes_eqb bytes_eqb.
Lemma c96_embed_case : decides (em_cont_eq dummy_embed) /\ decides bytes_eqb /\
  embed_commit_verify_suite dummy_embed bytes_eqb gen_messages [] = Ret tt /\
  embed_commit_verify_suite head_embed bytes_eqb gen_messages [] = Panic PAssert.
Proof. split; [exact bytes_decides|split; [exact bytes_decides|split; comp]]. Qed.
(** embed.rs:380-386 [test_convolve_commit] *)
Definition fifteen : list byte := [xc0; xc0; xc0; xc0; xc0; xc0; xc0; xc0; xc0; xc0; xc0; xc0; xc0; xc0; xc0].
Lemma c96_convolve_case : decides (cc_cmt_eq (@dummy_convolve sha256)) /\ decides bytes_eqb /\
  convolve_commit_verify_suite (@dummy_convolve sha256) bytes_eqb gen_messages fifteen = Ret tt /\
  convolve_commit_verify_suite (@dummy_convolve flat) bytes_eqb gen_messages fifteen = Panic PAssert.
Proof. split; [intros a b; apply b32_eqb_eq|split; [exact bytes_decides|split; comp]]. Qed.
Lemma c96_dummy_embed_case : NoDup gen_messages. Proof. exact gen_distinct. Qed.
Lemma c96_dummy_convolve_case : NoDup gen_messages /\
  @collision_in flat (map dummy_pre gen_messages).
Proof.
  split; [exact gen_distinct|]. exists (dummy_pre []), (dummy_pre [x00]).
  split; [left; reflexivity|split; [right; left; reflexivity|split; [vm_compute; discriminate|comp]]].
Qed.
Lemma c96_own_case : convolve_commit_verify_suite (@dummy_convolve sha256) bytes_eqb gen_messages fifteen = Ret tt /\
  @collision_in flat (map dummy_pre gen_messages).
Proof. split; [comp|exact (proj2 c96_dummy_convolve_case)]. Qed.
