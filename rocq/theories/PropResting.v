(** Concealing any block: C122 *)
From Coq Require Import Permutation Sorting.Sorted.
From Verif Require Import Base BaseFacts OrdMap Strict Digest Merkle MpcAtoms MpcTree MpcBlock.
From Verif Require Import Engine EngineIo Schemes Seals Api Vesper Sha256 Ripemd Dumb Text Loops Orders Suites MpcTests Serde Steps Work Costs.
From Verif Require Import SpecHash SpecTree SpecMerkle SpecFull SpecValid SpecCommit SpecDerived SpecBlock.
From Verif Require Import SpecBuoy SpecStrings SpecCodec SpecLayout SpecEngine SpecMisc SpecSha SpecDerive SpecLocal SpecSession SpecRipemd SpecEnd Stl SpecStl SpecQuery SpecCount SpecText SpecOrders SpecFind SpecForm SpecGame SpecHideGame SpecViewGame SpecBlockGame SpecSuites SpecExtend SpecCompress SpecTests SpecSerde SpecTalk SpecMany SpecDepth SpecTarget SpecIdGame SpecLate SpecTransfer SpecNest SpecScript SpecSalt SpecOpen SpecChoice SpecPick SpecOffer SpecPlay SpecSeek SpecShare SpecSettled SpecResting SpecDraw SpecFuse SpecFeed.
From Verif Require Import TheoremsMpc TheoremsBlock TheoremsMerkle TheoremsMisc TheoremsMore TheoremsExt TheoremsAdv TheoremsLocal TheoremsSession TheoremsHash TheoremsHide TheoremsEnd TheoremsStl TheoremsQuery TheoremsCount TheoremsText TheoremsFrame TheoremsLoops TheoremsTight TheoremsOrders TheoremsFind TheoremsForm TheoremsGame TheoremsHideGame TheoremsViewGame TheoremsBlockGame TheoremsSuites TheoremsExtend TheoremsCompress TheoremsTests TheoremsSerde TheoremsTalk TheoremsMany TheoremsDepth TheoremsWork TheoremsTarget TheoremsAttack TheoremsIdGame TheoremsLate TheoremsTransfer TheoremsNest TheoremsCosts TheoremsScript TheoremsSalt TheoremsOpen TheoremsChoice TheoremsPick TheoremsOffer TheoremsPlay TheoremsSeek TheoremsShare TheoremsSettled TheoremsResting TheoremsDraw TheoremsFuse TheoremsFeed.
From Verif Require Import CasesMpc CasesMisc CasesMore CasesExt CasesAdv CasesLocal CasesSession CasesHash CasesHide CasesEnd CasesStl CasesQuery CasesCount CasesText CasesFrame CasesLoops CasesTight CasesOrders CasesFind CasesForm CasesGame CasesHideGame CasesViewGame CasesBlockGame CasesSuites CasesExtend CasesCompress CasesTests CasesSerde CasesTalk CasesMany CasesDepth CasesWork CasesTarget CasesAttack CasesIdGame CasesLate CasesTransfer CasesNest CasesCosts CasesScript CasesSalt CasesOpen CasesChoice CasesPick CasesOffer CasesPlay CasesSeek CasesShare CasesSettled CasesResting CasesDraw CasesFuse CasesFeed.
Local Open Scope nat_scope.

Theorem C122_release : forall (H : Hasher) b ids b' n (valid : valid_block b)
  (known : forall p, In p ids -> In p (map fst (known_leaves (mb_cross_section b)))),
  conceal_except Release b ids = Ret (b', Ok n) <->
  exists F, map (hide (mb_depth b) ids) (mb_cross_section b) = frontiers F /\ resting (mb_depth b) 0 None F /\
    b' = MBlock (mb_method b) (mb_depth b) (mb_cofactor b) (map (top (2 ^ N.of_nat (mb_depth b))) F) None /\
    n = (N.of_nat (hidden_leaves ids (mb_cross_section b)) + (N.of_nat (length (mb_cross_section b)) - N.of_nat (length F)))%N.
Proof. exact c122_release. Qed.
Print Assumptions C122_release.
Example C122_release_case : valid_block b4s /\ (forall p, In p [p2] -> In p (map fst (known_leaves (mb_cross_section b4s)))) /\
  map (@hide toy (mb_depth b4s) [p2]) (mb_cross_section b4s) = frontiers f4s /\ resting (mb_depth b4s) 0 None f4s /\
  @conceal_except toy Release b4s [p2] = Ret (b4s', Ok 2%N) /\ (exists x, @conceal_except toy Debug b4s [p2] = Panic x).
Proof. exact c122_release_case. Qed.

Theorem C122_debug : forall (H : Hasher) b ids b' n (valid : valid_block b)
  (known : forall p, In p ids -> In p (map fst (known_leaves (mb_cross_section b)))),
  conceal_except Debug b ids = Ret (b', Ok n) <->
  exists F, map (hide (mb_depth b) ids) (mb_cross_section b) = frontiers F /\ resting (mb_depth b) 0 None F /\
    Forall (fun x => fst x <= mb_depth b) F /\ (breadth (mb_depth b) F < 2 ^ 32)%N /\
    (length F = length (mb_cross_section b) \/ breadth (mb_depth b) F = 2 ^ N.of_nat (mb_depth b))%N /\
    b' = MBlock (mb_method b) (mb_depth b) (mb_cofactor b) (map (top (2 ^ N.of_nat (mb_depth b))) F) None /\
    n = (N.of_nat (hidden_leaves ids (mb_cross_section b)) + (N.of_nat (length (mb_cross_section b)) - N.of_nat (length F)))%N.
Proof. exact c122_debug. Qed.
Print Assumptions C122_debug.
Example C122_debug_case : valid_block b4r /\ (forall p, In p [p2] -> In p (map fst (known_leaves (mb_cross_section b4r)))) /\
  map (@hide toy (mb_depth b4r) [p2]) (mb_cross_section b4r) = frontiers f4r /\ resting (mb_depth b4r) 0 None f4r /\
  breadth (mb_depth b4r) f4r = 4%N /\ @conceal_except toy Debug b4r [p2] = Ret (b4r', Ok 2%N).
Proof. exact c122_debug_case. Qed.

Theorem C122_unique : forall (H : Hasher) b ids F F' (valid : valid_block b)
  (one : map (hide (mb_depth b) ids) (mb_cross_section b) = frontiers F) (first : resting (mb_depth b) 0 None F)
  (other : map (hide (mb_depth b) ids) (mb_cross_section b) = frontiers F') (second : resting (mb_depth b) 0 None F'), F = F'.
Proof. exact c122_unique. Qed.
Print Assumptions C122_unique.
Example C122_unique_case : valid_block b4s /\
  map (@hide toy (mb_depth b4s) [p2]) (mb_cross_section b4s) = frontiers f4s /\ resting (mb_depth b4s) 0 None f4s /\ length f4s = 9.
Proof. exact c122_unique_case. Qed.

Theorem C122_again : forall (H : Hasher) md b ids b' n (valid : valid_block b)
  (known : forall p, In p ids -> In p (map fst (known_leaves (mb_cross_section b))))
  (concealed : conceal_except md b ids = Ret (b', Ok n)), conceal_except md b' ids = Ret (b', Ok 0%N).
Proof. exact c122_again. Qed.
Print Assumptions C122_again.
Example C122_again_case : valid_block b4s /\ (forall p, In p [p2] -> In p (map fst (known_leaves (mb_cross_section b4s)))) /\
  @conceal_except toy Release b4s [p2] = Ret (b4s', Ok 2%N) /\ b4s' <> b4s /\
  valid_block b4r /\ (forall p, In p [p2] -> In p (map fst (known_leaves (mb_cross_section b4r)))) /\
  @conceal_except toy Debug b4r [p2] = Ret (b4r', Ok 2%N).
Proof. exact c122_again_case. Qed.
