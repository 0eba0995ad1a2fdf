(** Cases for the theorems about templates and debug texts. *)
From Coq Require Import Ascii.
From Verif Require Import Base BaseFacts SpecText Text MpcAtoms MpcTree MpcBlock Schemes Api Seals SpecForm TheoremsMpc CasesMpc TheoremsForm.
Local Open Scope string_scope.

Lemma c91_templates_case : commit_error_text (TooManyMessages 70) =
    "number of messages (70) for LNPBP-4 commitment which exceeds the protocol limit of 2^16" /\
  template "{b}, {a}." [("a", "x"); ("b", "y")] = "y, x.".
Proof. split; comp. Qed.
Lemma c91_verdicts_case : embed_error_text (fun _ : unit => "bad") (EvInvalidMessage tt) =
  "the message is invalid since a valid commitment to it can't be created. Details: bad".
Proof. comp. Qed.
Lemma c91_seals_case : seal_error_text (fun n => num_text n) (fun _ : unit => "w") (fun _ : unit => "p") (fun _ : unit => "c")
  (SeNotIncluded 4%N tt) = "seal 4 is not included in the witness w".
Proof. comp. Qed.
Lemma c91_debug_case : nested "a(b)" /\ ~ nested "a(b" /\
  seal_error_debug (fun n => num_text n) (fun _ : unit => "w") (fun _ : unit => "p") (fun _ : unit => "c") (SeNotIncluded 4%N tt)
    = "SealError::NotIncluded(4, w)" /\
  seal_error_debug (fun n => num_text n) (fun _ : unit => "w") (fun _ : unit => "p") (fun _ : unit => "c") (SeClient tt)
    = "SealError::Client(err(c)".
Proof.
  split; [|split; [|split; comp]].
  - constructor; [discriminate|discriminate|]. apply (nested_pair "b" ""); repeat (constructor; try discriminate).
  - intros X. apply nested_count in X. discriminate.
Qed.
