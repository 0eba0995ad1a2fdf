(** Cases for the theorems about serde. *)
From Coq Require Import Permutation.
From Verif Require Import Base BaseFacts Strict MpcAtoms MpcTree MpcBlock Schemes Api Text SpecText SpecCodec SpecValid TheoremsMpc CasesMpc CasesMore Serde SpecSerde TheoremsSerde.
Local Open Scope nat_scope.

Definition upper_id : string := "00000000000000000000000000000000000000000000000000000000000000AB".
Lemma c100_small_case : read_id (JText (id_text p1)) = Some p1 /\ read_id (JText "00") = None /\
  (exists x, read_id (JText upper_id) = Some x /\ write_id x <> JText upper_id) /\
  read_method (JMap [("sha256t", JNull)]%string) = Some Sha256t /\ read_method (JText "Sha256t") = None /\
  read_convolve_error (JText "impossibleMessage") = Some CvImpossibleMessage /\
  read_invalid_proof (JMap [("width", JNum 4); ("protocolId", write_id p1); ("expected", JNum 1); ("actual", JNum 2)]%string) = Some (InvalidProof p1 1 2 4) /\
  read_invalid_proof (JMap [("width", JNum 4); ("protocol_id", write_id p1); ("expected", JNum 1); ("actual", JNum 2)]%string) = None.
Proof. repeat (split; [comp|]). split; [eexists; split; [comp|vm_compute; discriminate]|]. repeat (split; [comp|]). comp. Qed.
Lemma c100_node_case : read_tree_node true (JMap [("ConcealedNode", JList [JNum 31; write_id p1])]%string) = Some (ConcealedNode 31 p1) /\
  read_tree_node true (JMap [("ConcealedNode", JList [JNum 32; write_id p1])]%string) = None /\
  read_tree_node false (JMap [("ConcealedNode", JList [JNum 32; write_id p1])]%string) = Some (ConcealedNode 32 p1) /\
  read_tree_node true (JMap [("concealedNode", JList [JNum 31; write_id p1])]%string) = None /\
  read_tree_node true (JMap [("CommitmentLeaf", JMap [("message", write_id m1); ("protocol_id", write_id p1)])]%string) = Some (CommitmentLeaf p1 m1).
Proof. repeat (split; [comp|]). comp. Qed.
Lemma c100_concealed_case : read_concealed true (JMap [("merkleRoot", write_id m1); ("depth", JNum 3); ("cofactor", JNum 65535)]%string) = Some (MConcealed 3 65535 m1) /\
  read_concealed true (JMap [("merkleRoot", write_id m1); ("depth", JNum 3); ("cofactor", JNum 65536)]%string) = None.
Proof. split; comp. Qed.
Lemma c100_block_case : read_block true (JMap [("cross_section", JList [write_tree_node (CommitmentLeaf p1 m1)]); ("depth", JNum 0);
    ("method", JText "sha256t"); ("version", JOther); ("cofactor", JNum 0)]%string) = Some (MBlock Sha256t 0 0 [CommitmentLeaf p1 m1] None) /\
  read_block true (JMap [("cross_section", JList []); ("depth", JNum 0); ("method", JText "sha256t"); ("cofactor", JNum 0)]%string) = None /\
  read_block true (JMap [("cross_section", JList [write_tree_node (CommitmentLeaf p1 m1)]); ("depth", JNum 0);
    ("method", JText "sha256t"); ("cofactor", JNum 0); ("entropy", JNum (2 ^ 64))]%string) = None.
Proof. repeat (split; [comp|]). comp. Qed.
Lemma c100_proof_case : read_proof true (JList [JText "sha256t"; JNum 1; JNum 7; JList [write_id m1; write_id m2]]) = Some (MProof Sha256t 1 7 [m1; m2]) /\
  read_proof true (JList [JText "sha256t"; JNum 1; JNum 7; JList [write_id m1; write_id m2]; JNull]) = None.
Proof. split; comp. Qed.
Lemma c100_status_case : reads read_id is_id /\
  read_status read_id read_id read_id (read_uint 8) (JMap [("info", JList [JNum 3]); ("seal_issues", JList []); ("failures", JList [write_id p1]);
    ("warnings", JList [])]%string) = Some (Status [] [p1] [] [3%N]).
Proof. split; [exact reads_id|comp]. Qed.
Lemma c100_witness_case : reads read_id is_id /\
  read_witness read_id read_id (JMap [("client", write_id m1); ("published", write_id m2)]%string) = Some (m2, m1) /\
  read_witness read_id read_id (JList [write_id m2; write_id m1; JNull]) = None.
Proof. split; [exact reads_id|split; comp]. Qed.
Lemma c100_written_case : write_proof (MProof Sha256t 1 7 []) = JMap [("method", JText "sha256t"); ("pos", JNum 1); ("cofactor", JNum 7); ("path", JList [])]%string.
Proof. reflexivity. Qed.
Lemma c100_back_case : valid_block b1 /\ length (mb_cross_section b1) = 3 /\ read_block true (write_block b1) = Some b1 /\
  valid_proof pf1 /\ read_proof true (write_proof pf1) = Some pf1.
Proof.
  split; [split; [cbn; lia|split; [comp|split; [cbn; lia|split; [cbn; repeat constructor; cbn; lia|exact I]]]]|].
  split; [comp|split; [comp|split; [split; [comp|split; [comp|cbn; lia]]|comp]]].
Qed.
Lemma c100_back_report_case : (forall x, read_id (write_id x) = Some x) /\
  read_status read_id read_id read_id read_id (write_status write_id write_id write_id write_id (Status [p1] [p2; p3] [] [m1])) = Some (Status [p1] [p2; p3] [] [m1]).
Proof. split; [apply (c100_back true)|comp]. Qed.
Lemma c100_valid_case : exists b, read_block true (write_block b1) = Some b /\ exists p, read_proof true (write_proof pf1) = Some p.
Proof. exists b1. split; [comp|]. exists pf1. comp. Qed.
Lemma c100_order_case : exists es es', Permutation es es' /\ es <> es' /\ read_block true (JMap es) = Some b1 /\ read_block true (JMap es') = Some b1.
Proof.
  assert (X : exists es, write_block b1 = JMap es) by (eexists; reflexivity). destruct X as [es E].
  exists es, (rev es). split; [apply Permutation_rev|]. injection E as <-. split; [vm_compute; discriminate|split; comp].
Qed.
Lemma c100_unknown_case : ~ In "comment"%string ["method"; "depth"; "cofactor"; "cross_section"; "entropy"]%string /\
  read_proof true (JMap [("path", JList []); ("comment", JText "x"); ("pos", JNum 0); ("method", JText "sha256t"); ("cofactor", JNum 0)]%string) =
    Some (MProof Sha256t 0 0 []).
Proof. split; [cbn; intuition discriminate|comp]. Qed.
Lemma c100_refused_case : In "depth"%string ["method"; "depth"; "cofactor"; "cross_section"; "entropy"]%string /\
  read_block true (JMap [("cross_section", JList [write_tree_node (CommitmentLeaf p1 m1)]); ("depth", JNum 0);
    ("method", JText "sha256t"); ("depth", JNum 0); ("cofactor", JNum 0)]%string) = None.
Proof. split; [right; left; reflexivity|comp]. Qed.
Lemma c100_strict_case : read_block true (write_block b1) = Some b1 /\ dec c_merkle_block (enc c_merkle_block b1 ++ [x07]) = Some (b1, [x07]).
Proof. split; comp. Qed.
