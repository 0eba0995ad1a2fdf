(** Documents read and written by serde: C100 *)
From Coq Require Import Permutation Sorting.Sorted.
From Verif Require Import Base BaseFacts OrdMap Strict Digest Merkle MpcAtoms MpcTree MpcBlock.
From Verif Require Import Engine EngineIo Schemes Seals Api Vesper Sha256 Ripemd Dumb Text Loops Orders Suites MpcTests Serde Steps Work Costs.
From Verif Require Import SpecHash SpecTree SpecMerkle SpecFull SpecValid SpecCommit SpecDerived SpecBlock.
From Verif Require Import SpecBuoy SpecStrings SpecCodec SpecLayout SpecEngine SpecMisc SpecSha SpecDerive SpecLocal SpecSession SpecRipemd SpecEnd Stl SpecStl SpecQuery SpecCount SpecText SpecOrders SpecFind SpecForm SpecGame SpecHideGame SpecViewGame SpecBlockGame SpecSuites SpecExtend SpecCompress SpecTests SpecSerde SpecTalk SpecMany SpecDepth SpecTarget SpecIdGame SpecLate SpecTransfer SpecNest SpecScript SpecSalt SpecOpen SpecChoice SpecPick SpecOffer SpecPlay SpecSeek SpecShare SpecSettled SpecResting SpecDraw SpecFuse SpecFeed.
From Verif Require Import TheoremsMpc TheoremsBlock TheoremsMerkle TheoremsMisc TheoremsMore TheoremsExt TheoremsAdv TheoremsLocal TheoremsSession TheoremsHash TheoremsHide TheoremsEnd TheoremsStl TheoremsQuery TheoremsCount TheoremsText TheoremsFrame TheoremsLoops TheoremsTight TheoremsOrders TheoremsFind TheoremsForm TheoremsGame TheoremsHideGame TheoremsViewGame TheoremsBlockGame TheoremsSuites TheoremsExtend TheoremsCompress TheoremsTests TheoremsSerde TheoremsTalk TheoremsMany TheoremsDepth TheoremsWork TheoremsTarget TheoremsAttack TheoremsIdGame TheoremsLate TheoremsTransfer TheoremsNest TheoremsCosts TheoremsScript TheoremsSalt TheoremsOpen TheoremsChoice TheoremsPick TheoremsOffer TheoremsPlay TheoremsSeek TheoremsShare TheoremsSettled TheoremsResting TheoremsDraw TheoremsFuse TheoremsFeed.
From Verif Require Import CasesMpc CasesMisc CasesMore CasesExt CasesAdv CasesLocal CasesSession CasesHash CasesHide CasesEnd CasesStl CasesQuery CasesCount CasesText CasesFrame CasesLoops CasesTight CasesOrders CasesFind CasesForm CasesGame CasesHideGame CasesViewGame CasesBlockGame CasesSuites CasesExtend CasesCompress CasesTests CasesSerde CasesTalk CasesMany CasesDepth CasesWork CasesTarget CasesAttack CasesIdGame CasesLate CasesTransfer CasesNest CasesCosts CasesScript CasesSalt CasesOpen CasesChoice CasesPick CasesOffer CasesPlay CasesSeek CasesShare CasesSettled CasesResting CasesDraw CasesFuse CasesFeed.
Local Open Scope nat_scope.

Theorem C100_small : reads read_id is_id /\ reads read_method is_method /\ reads read_convolve_error is_convolve_error /\
  reads read_invalid_proof is_invalid_proof.
Proof. exact c100_small. Qed.
Print Assumptions C100_small.
Example C100_small_case : read_id (JText (id_text p1)) = Some p1 /\ read_id (JText "00") = None /\
  (exists x, read_id (JText upper_id) = Some x /\ write_id x <> JText upper_id) /\
  read_method (JMap [("sha256t", JNull)]%string) = Some Sha256t /\ read_method (JText "Sha256t") = None /\
  read_convolve_error (JText "impossibleMessage") = Some CvImpossibleMessage /\
  read_invalid_proof (JMap [("width", JNum 4); ("protocolId", write_id p1); ("expected", JNum 1); ("actual", JNum 2)]%string) = Some (InvalidProof p1 1 2 4) /\
  read_invalid_proof (JMap [("width", JNum 4); ("protocol_id", write_id p1); ("expected", JNum 1); ("actual", JNum 2)]%string) = None.
Proof. exact c100_small_case. Qed.

Theorem C100_node : forall ck, reads (read_tree_node ck) (is_node ck).
Proof. exact c100_node. Qed.
Print Assumptions C100_node.
Example C100_node_case : read_tree_node true (JMap [("ConcealedNode", JList [JNum 31; write_id p1])]%string) = Some (ConcealedNode 31 p1) /\
  read_tree_node true (JMap [("ConcealedNode", JList [JNum 32; write_id p1])]%string) = None /\
  read_tree_node false (JMap [("ConcealedNode", JList [JNum 32; write_id p1])]%string) = Some (ConcealedNode 32 p1) /\
  read_tree_node true (JMap [("concealedNode", JList [JNum 31; write_id p1])]%string) = None /\
  read_tree_node true (JMap [("CommitmentLeaf", JMap [("message", write_id m1); ("protocol_id", write_id p1)])]%string) = Some (CommitmentLeaf p1 m1).
Proof. exact c100_node_case. Qed.

Theorem C100_concealed : forall ck, reads (read_concealed ck) (is_concealed ck).
Proof. exact c100_concealed. Qed.
Print Assumptions C100_concealed.
Example C100_concealed_case : read_concealed true (JMap [("merkleRoot", write_id m1); ("depth", JNum 3); ("cofactor", JNum 65535)]%string) = Some (MConcealed 3 65535 m1) /\
  read_concealed true (JMap [("merkleRoot", write_id m1); ("depth", JNum 3); ("cofactor", JNum 65536)]%string) = None.
Proof. exact c100_concealed_case. Qed.

Theorem C100_block : forall ck, reads (read_block ck) (is_block ck).
Proof. exact c100_block. Qed.
Print Assumptions C100_block.
Example C100_block_case : read_block true (JMap [("cross_section", JList [write_tree_node (CommitmentLeaf p1 m1)]); ("depth", JNum 0);
    ("method", JText "sha256t"); ("version", JOther); ("cofactor", JNum 0)]%string) = Some (MBlock Sha256t 0 0 [CommitmentLeaf p1 m1] None) /\
  read_block true (JMap [("cross_section", JList []); ("depth", JNum 0); ("method", JText "sha256t"); ("cofactor", JNum 0)]%string) = None /\
  read_block true (JMap [("cross_section", JList [write_tree_node (CommitmentLeaf p1 m1)]); ("depth", JNum 0);
    ("method", JText "sha256t"); ("cofactor", JNum 0); ("entropy", JNum (2 ^ 64))]%string) = None.
Proof. exact c100_block_case. Qed.

Theorem C100_proof : forall ck, reads (read_proof ck) (is_proof ck).
Proof. exact c100_proof. Qed.
Print Assumptions C100_proof.
Example C100_proof_case : read_proof true (JList [JText "sha256t"; JNum 1; JNum 7; JList [write_id m1; write_id m2]]) = Some (MProof Sha256t 1 7 [m1; m2]) /\
  read_proof true (JList [JText "sha256t"; JNum 1; JNum 7; JList [write_id m1; write_id m2]; JNull]) = None.
Proof. exact c100_proof_case. Qed.

Theorem C100_status : forall A B C D (ra : doc -> option A) (rb : doc -> option B) (rc : doc -> option C) (rd : doc -> option D) ia ib ic id
  (issues : reads ra ia) (failures : reads rb ib) (warnings : reads rc ic) (infos : reads rd id),
  reads (read_status ra rb rc rd) (is_status ia ib ic id).
Proof. exact c100_status. Qed.
Print Assumptions C100_status.
Example C100_status_case : reads read_id is_id /\
  read_status read_id read_id read_id (read_uint 8) (JMap [("info", JList [JNum 3]); ("seal_issues", JList []); ("failures", JList [write_id p1]);
    ("warnings", JList [])]%string) = Some (Status [] [p1] [] [3%N]).
Proof. exact c100_status_case. Qed.

Theorem C100_witness : forall P C (rp : doc -> option P) (rc : doc -> option C) ip ic (published : reads rp ip) (client : reads rc ic),
  reads (read_witness rp rc) (is_witness ip ic).
Proof. exact c100_witness. Qed.
Print Assumptions C100_witness.
Example C100_witness_case : reads read_id is_id /\
  read_witness read_id read_id (JMap [("client", write_id m1); ("published", write_id m2)]%string) = Some (m2, m1) /\
  read_witness read_id read_id (JList [write_id m2; write_id m1; JNull]) = None.
Proof. exact c100_witness_case. Qed.

Theorem C100_written :
  (forall b, write_block b = JMap [("method", JText "sha256t"); ("depth", JNum (N.of_nat (mb_depth b))); ("cofactor", JNum (mb_cofactor b));
     ("cross_section", JList (map (fun n => match n with
        | ConcealedNode d h => JMap [("ConcealedNode", JMap [("depth", JNum (N.of_nat d)); ("hash", JText (id_text h))])]
        | CommitmentLeaf p m => JMap [("CommitmentLeaf", JMap [("protocol_id", JText (id_text p)); ("message", JText (id_text m))])] end)
        (mb_cross_section b)));
     ("entropy", match mb_entropy b with Some e => JNum e | None => JNull end)]%string) /\
  (forall p, write_proof p = JMap [("method", JText "sha256t"); ("pos", JNum (mp_pos p)); ("cofactor", JNum (mp_cofactor p));
     ("path", JList (map (fun h => JText (id_text h)) (mp_path p)))]%string) /\
  (forall c, write_concealed c = JMap [("depth", JNum (N.of_nat (mc_depth c))); ("cofactor", JNum (mc_cofactor c));
     ("merkleRoot", JText (id_text (mc_merkle_root c)))]%string) /\
  (forall e, write_invalid_proof e = JMap [("protocolId", JText (id_text (ip_protocol_id e))); ("expected", JNum (ip_expected e));
     ("actual", JNum (ip_actual e)); ("width", JNum (ip_width e))]%string) /\
  (forall e, write_convolve_error e = JText match e with CvCommitmentMismatch => "commitmentMismatch" | CvImpossibleMessage => "impossibleMessage"
     | CvInvalidProof => "invalidProof" end).
Proof. exact c100_written. Qed.
Print Assumptions C100_written.
Example C100_written_case : write_proof (MProof Sha256t 1 7 []) = JMap [("method", JText "sha256t"); ("pos", JNum 1); ("cofactor", JNum 7); ("path", JList [])]%string.
Proof. exact c100_written_case. Qed.

Theorem C100_back : forall ck,
  (forall b (valid : valid_block b), read_block ck (write_block b) = Some b) /\
  (forall p (valid : valid_proof p), read_proof ck (write_proof p) = Some p) /\
  (forall c (valid : valid_concealed c), read_concealed ck (write_concealed c) = Some c) /\
  (forall n (valid : valid_tree_node n), read_tree_node ck (write_tree_node n) = Some n) /\
  (forall p e a w (expected : (e < 2 ^ 32)%N) (actual : (a < 2 ^ 32)%N) (width : (w < 2 ^ 32)%N),
     read_invalid_proof (write_invalid_proof (InvalidProof p e a w)) = Some (InvalidProof p e a w)) /\
  (forall e, read_convolve_error (write_convolve_error e) = Some e) /\ (forall x, read_id (write_id x) = Some x) /\
  (forall m, read_method (write_method m) = Some m).
Proof. exact c100_back. Qed.
Print Assumptions C100_back.
Example C100_back_case : valid_block b1 /\ length (mb_cross_section b1) = 3 /\ read_block true (write_block b1) = Some b1 /\
  valid_proof pf1 /\ read_proof true (write_proof pf1) = Some pf1.
Proof. exact c100_back_case. Qed.

Theorem C100_back_report : forall A B C D (wa : A -> doc) (wb : B -> doc) (wc : C -> doc) (wd : D -> doc) ra rb rc rd
  (issues : forall x, ra (wa x) = Some x) (failures : forall x, rb (wb x) = Some x) (warnings : forall x, rc (wc x) = Some x)
  (infos : forall x, rd (wd x) = Some x),
  (forall s : @status A B C D, read_status ra rb rc rd (write_status wa wb wc wd s) = Some s) /\
  (forall w : A * B, read_witness ra rb (write_witness wa wb w) = Some w).
Proof. exact c100_back_report. Qed.
Print Assumptions C100_back_report.
Example C100_back_report_case : (forall x, read_id (write_id x) = Some x) /\
  read_status read_id read_id read_id read_id (write_status write_id write_id write_id write_id (Status [p1] [p2; p3] [] [m1])) = Some (Status [p1] [p2; p3] [] [m1]).
Proof. exact c100_back_report_case. Qed.

Theorem C100_valid :
  (forall d b, read_block true d = Some b -> valid_block b) /\ (forall d p, read_proof true d = Some p -> valid_proof p) /\
  (forall d c, read_concealed true d = Some c -> valid_concealed c) /\ (forall d n, read_tree_node true d = Some n -> valid_tree_node n).
Proof. exact c100_valid. Qed.
Print Assumptions C100_valid.
Example C100_valid_case : exists b, read_block true (write_block b1) = Some b /\ exists p, read_proof true (write_proof pf1) = Some p.
Proof. exact c100_valid_case. Qed.

Theorem C100_unchecked_refuted : exists d b d' p, read_block false d = Some b /\ mb_depth b = 255 /\ mb_cross_section b = [] /\ ~ valid_block b /\
  read_proof false d' = Some p /\ length (mp_path p) = 33 /\ ~ valid_proof p.
Proof. exact c100_unchecked_refuted. Qed.
Print Assumptions C100_unchecked_refuted.

Theorem C100_order : forall ck es es' (shuffled : Permutation es es'),
  read_block ck (JMap es) = read_block ck (JMap es') /\ read_proof ck (JMap es) = read_proof ck (JMap es') /\
  read_concealed ck (JMap es) = read_concealed ck (JMap es') /\ read_invalid_proof (JMap es) = read_invalid_proof (JMap es').
Proof. exact c100_order. Qed.
Print Assumptions C100_order.
Example C100_order_case : exists es es', Permutation es es' /\ es <> es' /\ read_block true (JMap es) = Some b1 /\ read_block true (JMap es') = Some b1.
Proof. exact c100_order_case. Qed.

Theorem C100_unknown : forall ck es1 es2 k v,
  (~ In k ["method"; "depth"; "cofactor"; "cross_section"; "entropy"]%string -> read_block ck (JMap (es1 ++ (k, v) :: es2)) = read_block ck (JMap (es1 ++ es2))) /\
  (~ In k ["method"; "pos"; "cofactor"; "path"]%string -> read_proof ck (JMap (es1 ++ (k, v) :: es2)) = read_proof ck (JMap (es1 ++ es2))).
Proof. exact c100_unknown. Qed.
Print Assumptions C100_unknown.
Example C100_unknown_case : ~ In "comment"%string ["method"; "depth"; "cofactor"; "cross_section"; "entropy"]%string /\
  read_proof true (JMap [("path", JList []); ("comment", JText "x"); ("pos", JNum 0); ("method", JText "sha256t"); ("cofactor", JNum 0)]%string) =
    Some (MProof Sha256t 0 0 []).
Proof. exact c100_unknown_case. Qed.

Theorem C100_refused : forall ck k v w es1 es2 es3 es (named : In k ["method"; "depth"; "cofactor"; "cross_section"; "entropy"]%string),
  read_block ck (JMap (es1 ++ (k, v) :: es2 ++ (k, w) :: es3)) = None /\
  (k <> "entropy"%string -> (forall x, ~ In (k, x) es) -> read_block ck (JMap es) = None) /\
  (k = "entropy"%string -> (forall x, ~ In (k, x) es) -> forall b, read_block ck (JMap es) = Some b -> mb_entropy b = None).
Proof. exact c100_refused. Qed.
Print Assumptions C100_refused.
Example C100_refused_case : In "depth"%string ["method"; "depth"; "cofactor"; "cross_section"; "entropy"]%string /\
  read_block true (JMap [("cross_section", JList [write_tree_node (CommitmentLeaf p1 m1)]); ("depth", JNum 0);
    ("method", JText "sha256t"); ("depth", JNum 0); ("cofactor", JNum 0)]%string) = None.
Proof. exact c100_refused_case. Qed.

Theorem C100_canonical_refuted : exists d p, read_proof true d = Some p /\ d <> write_proof p.
Proof. exact c100_canonical_refuted. Qed.
Print Assumptions C100_canonical_refuted.

Theorem C100_strict : forall d b bytes rest (read : read_block true d = Some b) (strict : enc c_merkle_block b = bytes),
  dec c_merkle_block (bytes ++ rest) = Some (b, rest) /\ read_block true (write_block b) = Some b.
Proof. exact c100_strict. Qed.
Print Assumptions C100_strict.
Example C100_strict_case : read_block true (write_block b1) = Some b1 /\ dec c_merkle_block (enc c_merkle_block b1 ++ [x07]) = Some (b1, [x07]).
Proof. exact c100_strict_case. Qed.
