(** RIPEMD-160 and framed data: C80 *)
From Coq Require Import Permutation Sorting.Sorted.
From Verif Require Import Base BaseFacts OrdMap Strict Digest Merkle MpcAtoms MpcTree MpcBlock.
From Verif Require Import Engine EngineIo Schemes Seals Api Vesper Sha256 Ripemd Dumb Text Loops Orders Suites MpcTests Serde Steps Work Costs.
From Verif Require Import SpecHash SpecTree SpecMerkle SpecFull SpecValid SpecCommit SpecDerived SpecBlock.
From Verif Require Import SpecBuoy SpecStrings SpecCodec SpecLayout SpecEngine SpecMisc SpecSha SpecDerive SpecLocal SpecSession SpecRipemd SpecEnd Stl SpecStl SpecQuery SpecCount SpecText SpecOrders SpecFind SpecForm SpecGame SpecHideGame SpecViewGame SpecBlockGame SpecSuites SpecExtend SpecCompress SpecTests SpecSerde SpecTalk SpecMany SpecDepth SpecTarget SpecIdGame SpecLate SpecTransfer SpecNest SpecScript SpecSalt SpecOpen SpecChoice SpecPick SpecOffer SpecPlay SpecSeek SpecShare SpecSettled SpecResting SpecDraw SpecFuse SpecFeed.
From Verif Require Import TheoremsMpc TheoremsBlock TheoremsMerkle TheoremsMisc TheoremsMore TheoremsExt TheoremsAdv TheoremsLocal TheoremsSession TheoremsHash TheoremsHide TheoremsEnd TheoremsStl TheoremsQuery TheoremsCount TheoremsText TheoremsFrame TheoremsLoops TheoremsTight TheoremsOrders TheoremsFind TheoremsForm TheoremsGame TheoremsHideGame TheoremsViewGame TheoremsBlockGame TheoremsSuites TheoremsExtend TheoremsCompress TheoremsTests TheoremsSerde TheoremsTalk TheoremsMany TheoremsDepth TheoremsWork TheoremsTarget TheoremsAttack TheoremsIdGame TheoremsLate TheoremsTransfer TheoremsNest TheoremsCosts TheoremsScript TheoremsSalt TheoremsOpen TheoremsChoice TheoremsPick TheoremsOffer TheoremsPlay TheoremsSeek TheoremsShare TheoremsSettled TheoremsResting TheoremsDraw TheoremsFuse TheoremsFeed.
From Verif Require Import CasesMpc CasesMisc CasesMore CasesExt CasesAdv CasesLocal CasesSession CasesHash CasesHide CasesEnd CasesStl CasesQuery CasesCount CasesText CasesFrame CasesLoops CasesTight CasesOrders CasesFind CasesForm CasesGame CasesHideGame CasesViewGame CasesBlockGame CasesSuites CasesExtend CasesCompress CasesTests CasesSerde CasesTalk CasesMany CasesDepth CasesWork CasesTarget CasesAttack CasesIdGame CasesLate CasesTransfer CasesNest CasesCosts CasesScript CasesSalt CasesOpen CasesChoice CasesPick CasesOffer CasesPlay CasesSeek CasesShare CasesSettled CasesResting CasesDraw CasesFuse CasesFeed.
Local Open Scope nat_scope.

Theorem C80_published : forall x d, (exists calls, rmd_run x calls d) <-> d = ripemd160 x /\ length d = 20.
Proof. exact c80_published. Qed.
Print Assumptions C80_published.
Example C80_published_case : exists calls, rmd_run (str "abc") calls (ripemd160 (str "abc")) /\
  hex (ripemd160 (str "abc")) = "8eb208f7e05d987a9b044a8e98c6b087f15a0bfc"%string.
Proof. exact c80_published_case. Qed.

Theorem C80_tagged : forall tag datas d calls (of_tag : rmd_run tag calls d),
  exists calls', rmd_run (r_pre d (concat datas)) calls' (rmd_finish (fold_left input_raw datas (rmd_from_tag tag))).
Proof. exact c80_tagged. Qed.
Print Assumptions C80_tagged.
Example C80_tagged_case : exists calls d, rmd_run tagr calls d /\
  rmd_finish (fold_left input_raw [str "ab"; str "c"] (rmd_from_tag tagr)) = ripemd160 (d ++ d ++ str "abc").
Proof. exact c80_tagged_case. Qed.

Theorem C80_binding : forall tag tag' datas datas' d d' calls calls'
  (of_tag : rmd_run tag calls d) (of_tag' : rmd_run tag' calls' d')
  (fit : Forall short [tag; tag'; r_pre d (concat datas); r_pre d' (concat datas')])
  (equal : rmd_finish (fold_left input_raw datas (rmd_from_tag tag)) = rmd_finish (fold_left input_raw datas' (rmd_from_tag tag'))),
  (tag = tag' /\ concat datas = concat datas') \/
  rcompress_collision_in [tag; tag'; r_pre d (concat datas); r_pre d' (concat datas')].
Proof. exact c80_binding. Qed.
Print Assumptions C80_binding.
Example C80_binding_case : exists calls d, rmd_run tagr calls d /\
  Forall short [tagr; tagr; r_pre d (concat [str "ab"; str "c"]); r_pre d (concat [str "a"; str "bc"])] /\
  rmd_finish (fold_left input_raw [str "ab"; str "c"] (rmd_from_tag tagr)) =
  rmd_finish (fold_left input_raw [str "a"; str "bc"] (rmd_from_tag tagr)).
Proof. exact c80_binding_case. Qed.

Theorem C80_framed : forall max k tag tag' xs ys d d' calls calls' e e'
  (size : prefix_size max k) (max_ok : (max < 2 ^ 32)%N)
  (short1 : Forall (fun x => (N.of_nat (length x) <= max)%N) xs)
  (short2 : Forall (fun x => (N.of_nat (length x) <= max)%N) ys)
  (of_tag : rmd_run tag calls d) (of_tag' : rmd_run tag' calls' d')
  (fed : inputs_with_len max (rmd_from_tag tag) xs = Ret e)
  (fed' : inputs_with_len max (rmd_from_tag tag') ys = Ret e')
  (fit : Forall short [tag; tag'; r_pre d (framed k xs); r_pre d' (framed k ys)])
  (equal : rmd_finish e = rmd_finish e'),
  (tag = tag' /\ xs = ys) \/ rcompress_collision_in [tag; tag'; r_pre d (framed k xs); r_pre d' (framed k ys)].
Proof. exact c80_framed. Qed.
Print Assumptions C80_framed.
Example C80_framed_case : exists calls d e e', rmd_run tagr calls d /\ prefix_size 65535 2 /\
  inputs_with_len 65535 (rmd_from_tag tagr) [str "ab"; str "c"] = Ret e /\
  inputs_with_len 65535 (rmd_from_tag tagr) [str "a"; str "bc"] = Ret e' /\ rmd_finish e <> rmd_finish e' /\
  Forall short [tagr; tagr; r_pre d (framed 2 [str "ab"; str "c"]); r_pre d (framed 2 [str "a"; str "bc"])].
Proof. exact c80_framed_case. Qed.

Theorem C80_framed_sha : forall (H : Hasher) max k tag tag' xs ys e e'
  (size : prefix_size max k) (max_ok : (max < 2 ^ 32)%N)
  (short1 : Forall (fun x => (N.of_nat (length x) <= max)%N) xs)
  (short2 : Forall (fun x => (N.of_nat (length x) <= max)%N) ys)
  (fed : inputs_with_len max (from_tag tag) xs = Ret e)
  (fed' : inputs_with_len max (from_tag tag') ys = Ret e')
  (equal : digest_finish e = digest_finish e'),
  (tag = tag' /\ xs = ys) \/ collision_in [tag; tag'; s_pre tag (framed k xs); s_pre tag' (framed k ys)].
Proof. exact c80_framed_sha. Qed.
Print Assumptions C80_framed_sha.
Example C80_framed_sha_case : exists e e', prefix_size 65535 2 /\
  inputs_with_len 65535 (@from_tag sha256 tagr) [str "ab"; str "c"] = Ret e /\
  inputs_with_len 65535 (@from_tag sha256 tagr) [str "a"; str "bc"] = Ret e' /\
  @digest_finish sha256 e <> @digest_finish sha256 e'.
Proof. exact c80_framed_sha_case. Qed.
