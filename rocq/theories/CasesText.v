(** Cases for the theorems about texts. *)
From Coq Require Import Ascii.
From Verif Require Import Base BaseFacts SpecText Text MpcAtoms MpcTree MpcBlock Schemes Api TheoremsMpc CasesMpc TheoremsText.
Local Open Scope nat_scope.

Definition hex_p1 : string := id_text p1.
Lemma c87_text_case : hex_of [x0a; xf7] "0af7" /\ String.length hex_p1 = 64.
Proof. split; [|comp]. constructor; [comp|comp|]. constructor; [comp|comp|]. constructor. Qed.
Lemma c87_parse_case : lower "0aF7" = "0af7"%string /\ bytes_parse "0aF7" = Some [x0a; xf7] /\ bytes_parse "0aF" = None /\
  bytes_parse "0g" = None /\ id_parse "0aF7" = None /\ hex_of (b32 p1) (lower hex_p1).
Proof. do 5 (split; [comp|]). apply c87_parse. comp. Qed.
Lemma c87_roundtrip_case : id_parse (id_text p1) = Some p1 /\ id_text p1 <> id_text p2.
Proof. split; [comp|]. intros E. apply id_text_inj in E. apply (f_equal b32) in E. discriminate. Qed.
Lemma c87_slice_case : b32_of (b32 p1) = Some p1 /\ b32_of (x00 :: b32 p1) = None.
Proof. split; comp. Qed.
Lemma c87_errors_case : commit_error_text (CantFitInMaxSlots 12) =
    "the provided number of messages (12) can't fit LNPBP-4 commitment size limits for a given set of protocol ids."%string /\
  commit_error_text (TooManyMessages 12) <> commit_error_text (CantFitInMaxSlots 12) /\
  invalid_proof_text (InvalidProof p1 1 23 4) <> invalid_proof_text (InvalidProof p1 12 3 4).
Proof.
  split; [comp|]. split; [discriminate|]. intros E. apply c87_errors in E. discriminate.
Qed.
Lemma c87_verdicts_case : validity_text SealIssues = "unresolved seal issues"%string /\
  verify_error_text InvalidMessage <> verify_error_text InvalidCommitment /\
  (forall n m, num_text n = num_text m -> n = m).
Proof. split; [comp|]. split; [discriminate|]. exact num_text_inj. Qed.
