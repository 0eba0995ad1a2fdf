(** Extending hashed strings: C97 *)
From Coq Require Import Permutation Sorting.Sorted.
From Verif Require Import Base BaseFacts OrdMap Strict Digest Merkle MpcAtoms MpcTree MpcBlock.
From Verif Require Import Engine EngineIo Schemes Seals Api Vesper Sha256 Ripemd Dumb Text Loops Orders Suites MpcTests Serde Steps Work Costs.
From Verif Require Import SpecHash SpecTree SpecMerkle SpecFull SpecValid SpecCommit SpecDerived SpecBlock.
From Verif Require Import SpecBuoy SpecStrings SpecCodec SpecLayout SpecEngine SpecMisc SpecSha SpecDerive SpecLocal SpecSession SpecRipemd SpecEnd Stl SpecStl SpecQuery SpecCount SpecText SpecOrders SpecFind SpecForm SpecGame SpecHideGame SpecViewGame SpecBlockGame SpecSuites SpecExtend SpecCompress SpecTests SpecSerde SpecTalk SpecMany SpecDepth SpecTarget SpecIdGame SpecLate SpecTransfer SpecNest SpecScript SpecSalt SpecOpen SpecChoice SpecPick SpecOffer SpecPlay SpecSeek SpecShare SpecSettled SpecResting SpecDraw SpecFuse SpecFeed.
From Verif Require Import TheoremsMpc TheoremsBlock TheoremsMerkle TheoremsMisc TheoremsMore TheoremsExt TheoremsAdv TheoremsLocal TheoremsSession TheoremsHash TheoremsHide TheoremsEnd TheoremsStl TheoremsQuery TheoremsCount TheoremsText TheoremsFrame TheoremsLoops TheoremsTight TheoremsOrders TheoremsFind TheoremsForm TheoremsGame TheoremsHideGame TheoremsViewGame TheoremsBlockGame TheoremsSuites TheoremsExtend TheoremsCompress TheoremsTests TheoremsSerde TheoremsTalk TheoremsMany TheoremsDepth TheoremsWork TheoremsTarget TheoremsAttack TheoremsIdGame TheoremsLate TheoremsTransfer TheoremsNest TheoremsCosts TheoremsScript TheoremsSalt TheoremsOpen TheoremsChoice TheoremsPick TheoremsOffer TheoremsPlay TheoremsSeek TheoremsShare TheoremsSettled TheoremsResting TheoremsDraw TheoremsFuse TheoremsFeed.
From Verif Require Import CasesMpc CasesMisc CasesMore CasesExt CasesAdv CasesLocal CasesSession CasesHash CasesHide CasesEnd CasesStl CasesQuery CasesCount CasesText CasesFrame CasesLoops CasesTight CasesOrders CasesFind CasesForm CasesGame CasesHideGame CasesViewGame CasesBlockGame CasesSuites CasesExtend CasesCompress CasesTests CasesSerde CasesTalk CasesMany CasesDepth CasesWork CasesTarget CasesAttack CasesIdGame CasesLate CasesTransfer CasesNest CasesCosts CasesScript CasesSalt CasesOpen CasesChoice CasesPick CasesOffer CasesPlay CasesSeek CasesShare CasesSettled CasesResting CasesDraw CasesFuse CasesFeed.
Local Open Scope nat_scope.

Theorem C97_extension : forall x p s (pad : padded x p),
  resumes (b32 (sha256 x)) (length p) s (b32 (sha256 (p ++ s))) /\
  forall d', resumes (b32 (sha256 x)) (length p) s d' -> d' = b32 (sha256 (p ++ s)).
Proof. exact c97_extension. Qed.
Print Assumptions C97_extension.
Example C97_extension_case : exists p d', padded (str "abc") p /\ length p = 64 /\
  resumes (b32 (sha256 (str "abc"))) 64 (str "def") d' /\ d' = b32 (sha256 (p ++ str "def")) /\ d' <> b32 (sha256 (str "abc")).
Proof. exact c97_extension_case. Qed.

Theorem C97_mpc : forall (H : Hasher) x p s (hashed : mpc_string x) (pad : padded x p), mpc_string (p ++ s) -> collision_in [s_node_tag; s_commit_tag].
Proof. exact c97_mpc. Qed.
Print Assumptions C97_mpc.
Example C97_mpc_case : exists x p s, @mpc_string flat x /\ padded x p /\ @mpc_string flat (p ++ s).
Proof. exact c97_mpc_case. Qed.

Theorem C97_listed : forall (H : Hasher) x,
  (forall t, In x (tree_pre t) -> mpc_string x) /\ (forall pf pid msg, In x (proof_pre pf pid msg) -> mpc_string x).
Proof. exact c97_listed. Qed.
Print Assumptions C97_listed.
Example C97_listed_case : In (@s_leaf toy p1 m1) (@tree_pre toy t0) /\ In (@s_leaf toy p1 m1) (@proof_pre toy (MProof Sha256t 0 1 [m2; p3]) p1 m1).
Proof. exact c97_listed_case. Qed.

Theorem C97_values : forall (H : Hasher) A (c : codec A) valid tag v w p s (law : lawful c valid) (ok_v : valid v) (ok_w : valid w)
  (pad : padded (s_pre tag (enc c v)) p), p ++ s <> s_pre tag (enc c w).
Proof. exact c97_values. Qed.
Print Assumptions C97_values.
Example C97_values_case : exists p, lawful c_merkle_proof valid_proof /\ valid_proof (MProof Sha256t 0 1 []) /\ valid_proof (MProof Sha256t 0 1 [m2; p3]) /\
  padded (@s_pre toy (str "tag") (enc c_merkle_proof (MProof Sha256t 0 1 []))) p.
Proof. exact c97_values_case. Qed.

Theorem C97_framed_refuted : forall max k e xs e' p s (size : prefix_size max k) (max_ok : (128 <= max < 2 ^ 32)%N)
  (fed : inputs_with_len max e xs = Ret e') (pad : padded e' p) (short : (N.of_nat (length e') < 2 ^ 37)%N)
  (added : length (p ++ s) = length e' + k + 128),
  exists d d', length d = 128 /\ inputs_with_len max e (xs ++ [d]) = Ret (p ++ s) /\
    resumes (b32 (sha256 e')) (length p) s d' /\ d' = b32 (sha256 (p ++ s)).
Proof. exact c97_framed_refuted. Qed.
Print Assumptions C97_framed_refuted.
Example C97_framed_refuted_case : exists e' p s d, prefix_size 65535 2 /\ inputs_with_len 65535 [] [[x01]; [x02; x03]] = Ret e' /\
  padded e' p /\ (N.of_nat (length e') < 2 ^ 37)%N /\ length (p ++ s) = length e' + 2 + 128 /\
  inputs_with_len 65535 [] [[x01]; [x02; x03]; d] = Ret (p ++ s).
Proof. exact c97_framed_refuted_case. Qed.

Theorem C97_mpc_sha : forall x p s (hashed : @mpc_string sha256 x) (pad : padded x p), ~ @mpc_string sha256 (p ++ s).
Proof. exact c97_mpc_sha. Qed.
Print Assumptions C97_mpc_sha.
Example C97_mpc_sha_case : exists x p s, @mpc_string sha256 x /\ padded x p /\ length (p ++ s) = 162 /\
  length (@s_branch sha256 5 0 ext_left m1) = 162.
Proof. exact c97_mpc_sha_case. Qed.

Theorem C97_tags : forall (H : Hasher) tag tag' data data' p s (pad : padded (s_pre tag data) p) (same : p ++ s = s_pre tag' data'),
  tag = tag' \/ collision_in [tag; tag'].
Proof. exact c97_tags. Qed.
Print Assumptions C97_tags.
Example C97_tags_case : exists p s, padded (@s_pre flat (str "a") []) p /\ p ++ s = @s_pre flat (str "b") (skipn 64 (p ++ s)).
Proof. exact c97_tags_case. Qed.
