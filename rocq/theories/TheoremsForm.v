(** C91: texts of errors from templates; debug texts of seal errors. *)
From Coq Require Import Ascii.
From Verif Require Import Base BaseFacts SpecText Text MpcAtoms MpcTree MpcBlock Schemes Api Seals SpecForm.
Local Open Scope string_scope.

Lemma app_assoc_s a b c : (a ++ b) ++ c = a ++ b ++ c.
Proof. induction a as [|x a IH]; [reflexivity|]. cbn. now rewrite IH. Qed.
Lemma count_app c a b : count c (a ++ b) = (count c a + count c b)%nat.
Proof. induction a as [|x a IH]; [reflexivity|]. cbn. destruct (Ascii.eqb c x); cbn; now rewrite IH. Qed.
Lemma nested_app a b : nested a -> nested b -> nested (a ++ b).
Proof.
  intros A B. induction A as [|c s C1 C2 A IH|s t A IH1 A' IH2]; [exact B|cbn; now constructor|].
  replace (("(" ++ s ++ ")" ++ t) ++ b) with ("(" ++ s ++ ")" ++ (t ++ b)).
  - now constructor.
  - cbn. now rewrite app_assoc_s.
Qed.
Lemma nested_count a : nested a -> count "(" a = count ")" a.
Proof.
  intros A. induction A as [|c s C1 C2 A IH|s t A IH1 A' IH2]; [reflexivity| |].
  - cbn [count]. destruct (Ascii.eqb_spec "(" c); [congruence|]. destruct (Ascii.eqb_spec ")" c); [congruence|]. exact IH.
  - rewrite !count_app. cbn. rewrite IH1, IH2. lia.
Qed.
Lemma nested_concat l : Forall nested l -> nested (String.concat ", " l).
Proof.
  induction l as [|x [|y l] IH]; intros F; [constructor| |].
  - apply Forall_inv in F. exact F.
  - change (nested (x ++ (", " ++ String.concat ", " (y :: l)))). apply nested_app; [apply Forall_inv in F; exact F|].
    apply nested_app; [|apply IH; apply Forall_inv_tail in F; exact F].
    repeat (constructor; try discriminate).
Qed.
Lemma nested_tuple name l : nested name -> Forall nested l -> nested (debug_tuple name l).
Proof.
  intros N F. unfold debug_tuple. apply nested_app; [exact N|].
  replace (")") with (")" ++ "") by reflexivity. apply nested_pair; [apply nested_concat; exact F|constructor].
Qed.

Lemma c91_templates :
  (forall p, leaf_not_known_text p =
     template "commitment under protocol id {0} is absent from the known part of a given LNPBP-4 Merkle block."
       [("0", id_text p)]) /\
  (forall e, invalid_proof_text e =
     template "the provided merkle proof protocol id {protocol_id} position {actual} doesn't match the expected position {expected} within the tree of width {width}."
       [("protocol_id", id_text (ip_protocol_id e)); ("expected", num_text (ip_expected e));
        ("actual", num_text (ip_actual e)); ("width", num_text (ip_width e))]) /\
  (forall a b, merge_error_text (UnrelatedBlocks a b) =
     template "attempt to merge two unrelated LNPBP-4 blocks with different Merkle roots (base {base_root}, merged-in {merged_root})."
       [("base_root", id_text a); ("merged_root", id_text b)]) /\
  (forall e, merge_error_text (MInvalidProof e) = invalid_proof_text e) /\
  commit_error_text Empty = "can't create commitment for an empty message list and zero tree depth." /\
  (forall n, commit_error_text (TooManyMessages n) =
     template "number of messages ({0}) for LNPBP-4 commitment which exceeds the protocol limit of 2^16"
       [("0", num_text (N.of_nat n))]) /\
  (forall n, commit_error_text (CantFitInMaxSlots n) =
     template "the provided number of messages ({0}) can't fit LNPBP-4 commitment size limits for a given set of protocol ids."
       [("0", num_text (N.of_nat n))]).
Proof. repeat split. Qed.

Lemma app_nil_s a : a ++ "" = a.
Proof. induction a as [|x a IH]; [reflexivity|]. cbn. now rewrite IH. Qed.

Lemma c91_verdicts : forall E (show : E -> string),
  verify_error_text InvalidCommitment = "commitment doesn't match the message." /\
  verify_error_text InvalidMessage = "the message is invalid since a valid commitment to it can't be created." /\
  convolve_error_text CvCommitmentMismatch = verify_error_text InvalidCommitment /\
  convolve_error_text CvImpossibleMessage = verify_error_text InvalidMessage /\
  convolve_error_text CvInvalidProof = "the proof is invalid and the commitment can't be verified." /\
  embed_error_text show EvCommitmentMismatch = verify_error_text InvalidCommitment /\
  (forall x, embed_error_text show (EvInvalidMessage x) =
     template "{message} Details: {0}" [("message", verify_error_text InvalidMessage); ("0", show x)]) /\
  embed_error_text show EvInvalidProof =
    "the proof is invalid and the commitment can't be verified since the original container can't be restored from it." /\
  embed_error_text show EvProofMismatch =
    "the proof does not match to the proof generated for the same message during the verification." /\
  validity_text Valid = "valid" /\ validity_text SealIssues = "unresolved seal issues" /\ validity_text Invalid = "invalid".
Proof.
  intros E show. do 6 (split; [reflexivity|]). split; [|repeat split].
  intros x. unfold template. transitivity (fill [("message", verify_error_text InvalidMessage); ("0", show x)] None "{message} Details: " ++ show x).
  - reflexivity.
  - rewrite <- (app_nil_s (show x)) at 2. reflexivity.
Qed.

(** Texts of seal errors *)
Lemma c91_seals : forall Seal PubId PubErr CliErr (ss : Seal -> string) (si : PubId -> string) (sp : PubErr -> string)
    (sc : CliErr -> string),
  (forall s i, seal_error_text ss si sp sc (SeNotIncluded s i) =
     template "seal {seal} is not included in the witness {pub_id}" [("seal", ss s); ("pub_id", si i)]) /\
  (forall x, seal_error_text ss si sp sc (SePublished x) = sp x) /\
  (forall x, seal_error_text ss si sp sc (SeClient x) = sc x).
Proof.
  intros. split; [|split; reflexivity]. intros s i. unfold template.
  cbn. now rewrite app_nil_s.
Qed.

Lemma c91_debug : forall Seal PubId PubErr CliErr (ss : Seal -> string) (si : PubId -> string) (sp : PubErr -> string)
    (sc : CliErr -> string),
  (forall s i, tuple_text "SealError::NotIncluded" [ss s; si i] (seal_error_debug ss si sp sc (SeNotIncluded s i)) /\
     (nested (ss s) -> nested (si i) -> nested (seal_error_debug ss si sp sc (SeNotIncluded s i)))) /\
  (forall x, tuple_text "SealError::Published" [sp x] (seal_error_debug ss si sp sc (SePublished x)) /\
     (nested (sp x) -> nested (seal_error_debug ss si sp sc (SePublished x)))) /\
  (forall x (parts : nested (sc x)), ~ nested (seal_error_debug ss si sp sc (SeClient x)) /\
     forall name, ~ tuple_text name [sc x] (seal_error_debug ss si sp sc (SeClient x))).
Proof.
  intros. assert (P : forall n, count "(" n = 0%nat -> count ")" n = 0%nat -> nested n).
  { clear. induction n as [|c n IH]; [constructor|]. cbn [count]. destruct (Ascii.eqb_spec "(" c); [intros X; discriminate X|].
    destruct (Ascii.eqb_spec ")" c); [intros _ X; discriminate X|]. intros. constructor; [congruence|congruence|auto]. }
  split; [|split].
  - intros s i. split; [repeat split|]. intros A B. apply nested_tuple; [apply P; reflexivity|repeat constructor; assumption].
  - intros x. split; [repeat split|]. intros A. apply nested_tuple; [apply P; reflexivity|repeat constructor; assumption].
  - intros x A. apply nested_count in A.
    assert (X : count "(" (seal_error_debug ss si sp sc (SeClient x)) = S (count ")" (seal_error_debug ss si sp sc (SeClient x)))).
    { unfold seal_error_debug, debug_tuple. rewrite !count_app. cbn [String.concat]. rewrite A. cbn. lia. }
    split.
    + intros B. apply nested_count in B. lia.
    + intros n [E [N1 N2]]. rewrite E, !count_app in X. cbn [String.concat] in X. rewrite N1, N2, A in X. cbn in X. lia.
Qed.
