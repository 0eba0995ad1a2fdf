(** Commit engine and layouts: C34-C37, C49 *)
From Coq Require Import Permutation Sorting.Sorted.
From Verif Require Import Base BaseFacts OrdMap Strict Digest Merkle MpcAtoms MpcTree MpcBlock.
From Verif Require Import Engine EngineIo Schemes Seals Api Vesper Sha256 Ripemd Dumb Text Loops Orders Suites MpcTests Serde Steps Work Costs.
From Verif Require Import SpecHash SpecTree SpecMerkle SpecFull SpecValid SpecCommit SpecDerived SpecBlock.
From Verif Require Import SpecBuoy SpecStrings SpecCodec SpecLayout SpecEngine SpecMisc SpecSha SpecDerive SpecLocal SpecSession SpecRipemd SpecEnd Stl SpecStl SpecQuery SpecCount SpecText SpecOrders SpecFind SpecForm SpecGame SpecHideGame SpecViewGame SpecBlockGame SpecSuites SpecExtend SpecCompress SpecTests SpecSerde SpecTalk SpecMany SpecDepth SpecTarget SpecIdGame SpecLate SpecTransfer SpecNest SpecScript SpecSalt SpecOpen SpecChoice SpecPick SpecOffer SpecPlay SpecSeek SpecShare SpecSettled SpecResting SpecDraw SpecFuse SpecFeed.
From Verif Require Import TheoremsMpc TheoremsBlock TheoremsMerkle TheoremsMisc TheoremsMore TheoremsExt TheoremsAdv TheoremsLocal TheoremsSession TheoremsHash TheoremsHide TheoremsEnd TheoremsStl TheoremsQuery TheoremsCount TheoremsText TheoremsFrame TheoremsLoops TheoremsTight TheoremsOrders TheoremsFind TheoremsForm TheoremsGame TheoremsHideGame TheoremsViewGame TheoremsBlockGame TheoremsSuites TheoremsExtend TheoremsCompress TheoremsTests TheoremsSerde TheoremsTalk TheoremsMany TheoremsDepth TheoremsWork TheoremsTarget TheoremsAttack TheoremsIdGame TheoremsLate TheoremsTransfer TheoremsNest TheoremsCosts TheoremsScript TheoremsSalt TheoremsOpen TheoremsChoice TheoremsPick TheoremsOffer TheoremsPlay TheoremsSeek TheoremsShare TheoremsSettled TheoremsResting TheoremsDraw TheoremsFuse TheoremsFeed.
From Verif Require Import CasesMpc CasesMisc CasesMore CasesExt CasesAdv CasesLocal CasesSession CasesHash CasesHide CasesEnd CasesStl CasesQuery CasesCount CasesText CasesFrame CasesLoops CasesTight CasesOrders CasesFind CasesForm CasesGame CasesHideGame CasesViewGame CasesBlockGame CasesSuites CasesExtend CasesCompress CasesTests CasesSerde CasesTalk CasesMany CasesDepth CasesWork CasesTarget CasesAttack CasesIdGame CasesLate CasesTransfer CasesNest CasesCosts CasesScript CasesSalt CasesOpen CasesChoice CasesPick CasesOffer CasesPlay CasesSeek CasesShare CasesSettled CasesResting CasesDraw CasesFuse CasesFeed.
Local Open Scope nat_scope.

Theorem C34_digest : forall (H : Hasher) md tag fs e bss
  (fed : run md fs (engine_new tag) = Ret e) (bytes : Forall2 feeds fs bss),
  digest_finish (engine_finish e) = HASH (s_pre tag (concat bss)).
Proof. exact c34_digest. Qed.
Print Assumptions C34_digest.
Example C34_digest_case : exists e, @run toy Debug fields0 (@engine_new toy (str "tag")) = Ret e /\
  Forall2 (@feeds toy) fields0 bytes0 /\ into_layout e = steps0 /\
  @digest_finish toy (engine_finish e) = @HASH toy (@s_pre toy (str "tag") (concat bytes0)).
Proof. exact c34_digest_case. Qed.

Theorem C34_layout : forall (H : Hasher) md tag fs e
  (fed : run md fs (engine_new tag) = Ret e),
  (exists bss, Forall2 feeds fs bss) /\ Forall2 step_for fs (into_layout e).
Proof. exact c34_layout. Qed.
Print Assumptions C34_layout.
(* Hypotheses met: see C34_digest_case. *)

Theorem C34_split_independent : forall (H : Hasher) md md' tag fs gs e e' bss css
  (fed1 : run md fs (engine_new tag) = Ret e) (fed2 : run md' gs (engine_new tag) = Ret e')
  (bytes1 : Forall2 feeds fs bss) (bytes2 : Forall2 feeds gs css) (same : concat bss = concat css),
  digest_finish (engine_finish e) = digest_finish (engine_finish e').
Proof. exact c34_split_independent. Qed.
Print Assumptions C34_split_independent.
Example C34_split_independent_case :
  let fs := [FSerialized u8t 5%N; FSerialized u8t 6%N] in let gs := [FSerialized u16t 1541%N] in
  exists e e', @run toy Debug fs (@engine_new toy (str "tag")) = Ret e /\
    @run toy Release gs (@engine_new toy (str "tag")) = Ret e' /\
    Forall2 (@feeds toy) fs [[x05]; [x06]] /\ Forall2 (@feeds toy) gs [[x05; x06]] /\
    into_layout e <> into_layout e'.
Proof. exact c34_split_independent_case. Qed.

Theorem C34_commit_id : forall (H : Hasher) A md (I : commit_encode A) v fs bss e
  (impl : ce_encode I md v (engine_new (ce_tag I)) = run md fs (engine_new (ce_tag I)))
  (fed : run md fs (engine_new (ce_tag I)) = Ret e) (bytes : Forall2 feeds fs bss),
  commit_id md I v = Ret (HASH (s_pre (ce_tag I) (concat bss))).
Proof. exact c34_commit_id. Qed.
Print Assumptions C34_commit_id.
Example C34_commit_id_case :
  let I := @derive_strict N (str "tag") idt u8t in
  exists e, ce_encode I Debug 5%N (@engine_new toy (ce_tag I)) = @run toy Debug [FSerialized u8t 5%N] (@engine_new toy (ce_tag I)) /\
    @run toy Debug [FSerialized u8t 5%N] (@engine_new toy (ce_tag I)) = Ret e /\
    Forall2 (@feeds toy) [FSerialized u8t 5%N] [[x05]].
Proof. exact c34_commit_id_case. Qed.

Theorem C35_binding : forall (H : Hasher) md md' tag fs gs e e' bs cs Lf Lg
  (fed1 : run md fs (engine_new tag) = Ret e) (fed2 : run md' gs (engine_new tag) = Ret e')
  (kinds : Forall2 same_kind fs gs) (bytes1 : Forall2 feeds fs bs) (bytes2 : Forall2 feeds gs cs)
  (hashed1 : fields_hashed fs Lf) (hashed2 : fields_hashed gs Lg)
  (same : digest_finish (engine_finish e) = digest_finish (engine_finish e')),
  fs = gs \/ collision_in ((s_pre tag (concat bs) :: Lf) ++ (s_pre tag (concat cs) :: Lg)).
Proof. exact c35_binding. Qed.
Print Assumptions C35_binding.
Example C35_binding_case :
  let fs := [FSerialized u8t 5%N; FMerkle idt [p1; p2]] in let gs := [FSerialized u8t 6%N; FMerkle idt [p1; p2; p3]] in
  exists e e' bs cs Lf Lg, @run flat Debug fs (@engine_new flat (str "tag")) = Ret e /\
    @run flat Debug gs (@engine_new flat (str "tag")) = Ret e' /\ Forall2 same_kind fs gs /\
    Forall2 (@feeds flat) fs bs /\ Forall2 (@feeds flat) gs cs /\ @fields_hashed flat fs Lf /\ @fields_hashed flat gs Lg /\
    @digest_finish flat (engine_finish e) = @digest_finish flat (engine_finish e').
Proof. exact c35_binding_case. Qed.

Theorem C36_defined : forall (H : Hasher) md f e,
  (exists e', run1 md f e = Ret e') <->
  length (en_layout e) < 255 /\ (md = Debug -> en_finished e = false) /\
  (exists s, step_for f s) /\ allowed_field md f.
Proof. exact c36_defined. Qed.
Print Assumptions C36_defined.
Example C36_defined_case :
  (exists e, @run1 toy Debug (FSerialized u8t 5%N) (@engine_new toy (str "tag")) = Ret e) /\
  @run1 toy Debug (FSerialized u8t 5%N) (set_finished (@engine_new toy (str "tag"))) = Panic PDebugAssert /\
  (exists e, @run1 toy Release (FSerialized u8t 5%N) (set_finished (@engine_new toy (str "tag"))) = Ret e) /\
  @run1 toy Release (FSerialized (Typed (SType "Lib" None) (c_le 1)) 5%N) (@engine_new toy (str "tag")) = Panic PExpect /\
  @run1 toy Debug (FSerialized (Typed (SType "CommitVerify" (Some "MerkleHash"%string)) c_b32) p1) (@engine_new toy (str "tag"))
    = Panic PDebugAssert.
Proof. exact c36_defined_case. Qed.

Theorem C36_effect : forall (H : Hasher) md f e e' (fed : run1 md f e = Ret e'),
  exists s bs, step_for f s /\ feeds f bs /\
    en_layout e' = en_layout e ++ [s] /\ en_hasher e' = en_hasher e ++ bs /\ en_finished e' = en_finished e.
Proof. exact c36_effect. Qed.
Print Assumptions C36_effect.
(* Hypotheses met: see C36_defined_case. *)

Theorem C36_finished : forall (H : Hasher) f e,
  (forall e', run1 Debug f (set_finished e) <> Ret e') /\
  (forall e', run1 Debug f (snd (as_layout e)) <> Ret e') /\
  run1 Release f (set_finished e) =
    match run1 Release f e with Ret e' => Ret (set_finished e') | Panic p => Panic p end.
Proof. exact c36_finished. Qed.
Print Assumptions C36_finished.
(* Hypotheses met: see C36_defined_case. *)

Theorem C36_limit : forall (H : Hasher) md f e, length (en_layout e) = 255 ->
  forall e', run1 md f e <> Ret e'.
Proof. exact c36_limit. Qed.
Print Assumptions C36_limit.
Example C36_limit_case :
  let e := Engine false [] (repeat (StHashed (Fqn "Lib" "Id")) 255) in
  length (en_layout e) = 255 /\ @run1 toy Debug (FHash idt p1) e = Panic PExpect.
Proof. exact c36_limit_case. Qed.

Theorem C36_sequence : forall (H : Hasher) md tag fs,
  (exists e, run md fs (engine_new tag) = Ret e) <->
  length fs <= 255 /\ Forall (fun f => exists s, step_for f s) fs /\ Forall (allowed_field md) fs.
Proof. exact c36_sequence. Qed.
Print Assumptions C36_sequence.
Example C36_sequence_case : length fields0 <= 255 /\ Forall (fun f => exists s, step_for f s) fields0 /\
  Forall (allowed_field Debug) fields0 /\ exists e, @run toy Debug fields0 (@engine_new toy (str "tag")) = Ret e.
Proof. exact c36_sequence_case. Qed.

Theorem C37_strict : forall (H : Hasher) A md tag idty (T : typed A) f v
  (name : has_fqn (ty T) f) (type : md = Debug -> not_reserved_type (ty T)),
  commit_id md (derive_strict tag idty T) v = Ret (HASH (s_pre tag (enc (ty_codec T) v))) /\
  exists e, commit md (derive_strict tag idty T) v = Ret e /\ into_layout e = [StSerialized f].
Proof. exact c37_strict. Qed.
Print Assumptions C37_strict.
Example C37_strict_case : has_fqn (ty u8t) u8q /\ not_reserved_type (ty u8t) /\
  @commit_id toy N Debug (@derive_strict N (str "tag") idt u8t) 5%N = Ret (@HASH toy (@s_pre toy (str "tag") [x05])).
Proof. exact c37_strict_case. Qed.

Theorem C37_transparent : forall (H : Hasher) A B md tag idty (T : typed B) (inner : A -> B) f v
  (name : has_fqn (ty T) f) (type : md = Debug -> not_reserved_type (ty T)),
  commit_id md (derive_transparent tag idty T inner) v = Ret (HASH (s_pre tag (enc (ty_codec T) (inner v)))) /\
  exists e, commit md (derive_transparent tag idty T inner) v = Ret e /\ into_layout e = [StSerialized f].
Proof. exact c37_transparent. Qed.
Print Assumptions C37_transparent.
Example C37_transparent_case : has_fqn (ty u8t) u8q /\ not_reserved_type (ty u8t) /\
  @commit_id toy (N * unit) Release (@derive_transparent (N * unit) N (str "tag") idt u8t fst) (5%N, tt) =
    Ret (@HASH toy (@s_pre toy (str "tag") [x05])).
Proof. exact c37_transparent_case. Qed.

Theorem C37_conceal : forall (H : Hasher) A B C md tag idty (c1 : mode -> A -> outcome B) t2 (c2 : mode -> B -> outcome C)
    CT f v b c (name : has_fqn t2 f) (first : c1 md v = Ret b) (second : c2 md b = Ret c),
  commit_id md (derive_conceal tag idty c1 t2 c2 CT) v = Ret (HASH (s_pre tag (enc CT c))) /\
  exists e, commit md (derive_conceal tag idty c1 t2 c2 CT) v = Ret e /\ into_layout e = [StConcealed f].
Proof. exact c37_conceal. Qed.
Print Assumptions C37_conceal.
Example C37_conceal_case :
  has_fqn (named "MerkleConcealed") (Fqn "CommitVerify" "MerkleConcealed") /\
  exists c, @block_conceal toy Debug b0 = Ret c /\ @block_conceal toy Debug b1 = Ret c.
Proof. exact c37_conceal_case. Qed.

Theorem C37_merklize : forall (H : Hasher) A md tag idty leaf_ty (leaves : A -> list bytes32) f v
  (name : has_fqn leaf_ty f) (bound : (N.of_nat (length (leaves v)) < 2 ^ 32)%N),
  exists r, merkle_root_of (leaves v) r /\
  commit_id md (derive_merklize tag idty leaf_ty leaves) v = Ret (HASH (s_pre tag (b32 r))) /\
  exists e, commit md (derive_merklize tag idty leaf_ty leaves) v = Ret e /\ into_layout e = [StMerklized f].
Proof. exact c37_merklize. Qed.
Print Assumptions C37_merklize.
Example C37_merklize_case : has_fqn idt (Fqn "Lib" "Id") /\
  @commit_id toy unit Debug (@derive_merklize toy unit (str "tag") idt idt (fun _ => [p1; p2; p3])) tt =
    Ret (@HASH toy (@s_pre toy (str "tag") (b32 root3))).
Proof. exact c37_merklize_case. Qed.

Theorem C37_idempotent : forall (H : Hasher) A md tag idty (conceal : A -> A) t2 (CT : codec A) f v
  (name : has_fqn t2 f) (idem : forall x, conceal (conceal x) = conceal x),
  let I := derive_conceal tag idty (fun _ x => Ret (conceal x)) t2 (fun _ x => Ret (conceal x)) CT in
  commit_id md I v = commit_id md I (conceal v) /\
  commit_id md I v = Ret (HASH (s_pre tag (enc CT (conceal v)))).
Proof. exact c37_idempotent. Qed.
Print Assumptions C37_idempotent.
Example C37_idempotent_case : has_fqn (ty u8t) u8q /\ (forall x : N, N.land (N.land x 15) 15 = N.land x 15)%N.
Proof. exact c37_idempotent_case. Qed.

Theorem C37_crate_types : forall (H : Hasher) md,
  (forall l, commit_id md ce_leaf l = Ret (leaf_commit_id l)) /\
  (forall n, commit_id md ce_merkle_node n = Ret (node_commit_id n)) /\
  (forall c, commit_id md ce_concealed c = Ret (concealed_commit_id c)) /\
  (forall b, commit_id md ce_block b = block_commit_id md b) /\
  (forall t, commit_id md ce_tree t = tree_commit_id md t).
Proof. exact c37_crate_types. Qed.
Print Assumptions C37_crate_types.
Example C37_crate_types_case : @commit_id toy merkle_block Debug (@ce_block toy) b1 = Ret c0 /\ @block_commit_id toy Debug b1 = Ret c0.
Proof. exact c37_crate_types_case. Qed.

Theorem C49_text : forall l (steps : length (cl_fields l) <= 255),
  exists x, to_vesper l = Ret x /\ vprint x = layout_text l.
Proof. exact c49_text. Qed.
Print Assumptions C49_text.
Example C49_text_case : exists x, to_vesper (CommitLayout (Fqn "Lib" "Id") (str "tag") steps0) = Ret x /\ length steps0 <= 255.
Proof. exact c49_text_case. Qed.

Theorem C49_identifies : forall l m x y
  (left : to_vesper l = Ret x) (right : to_vesper m = Ret y),
  vprint x = vprint y <-> forget_libs l = forget_libs m.
Proof. exact c49_identifies. Qed.
Print Assumptions C49_identifies.
Example C49_identifies_case :
  let l := CommitLayout (Fqn "Lib" "Id") (str "tag") steps0 in
  let m := CommitLayout (Fqn "Lib" "Id") (str "tag") [StConcealed u8q] in
  exists x y, to_vesper l = Ret x /\ to_vesper m = Ret y /\ vprint x <> vprint y.
Proof. exact c49_identifies_case. Qed.

Theorem C49_libs_refuted : exists l m x, l <> m /\ to_vesper l = Ret x /\ (exists y, to_vesper m = Ret y /\ vprint x = vprint y).
Proof. exact c49_libs_refuted. Qed.
Print Assumptions C49_libs_refuted.

Theorem C49_crate_layouts : forall (H : Hasher) md,
  let fq := Fqn "CommitVerify" in
  let node_tag := str "urn:ubideco:merkle:node#2024-01-31" in
  let mpc_tag := str "urn:ubideco:mpc:commitment#2024-01-31" in
  (forall l, commitment_layout md ce_leaf l = Ret (CommitLayout (fq "MerkleHash"%string) node_tag [StSerialized (fq "Leaf"%string)])) /\
  (forall n, commitment_layout md ce_merkle_node n =
     Ret (CommitLayout (fq "MerkleHash"%string) node_tag [StSerialized (fq "MerkleNode"%string)])) /\
  (forall c, commitment_layout md ce_concealed c =
     Ret (CommitLayout (fq "Commitment"%string) mpc_tag [StSerialized (fq "MerkleConcealed"%string)])) /\
  (forall b c, block_commit_id md b = Ret c ->
     commitment_layout md ce_block b = Ret (CommitLayout (fq "Commitment"%string) mpc_tag [StConcealed (fq "MerkleConcealed"%string)])) /\
  (forall t c, tree_commit_id md t = Ret c ->
     commitment_layout md ce_tree t = Ret (CommitLayout (fq "Commitment"%string) mpc_tag [StConcealed (fq "MerkleConcealed"%string)])).
Proof. exact c49_crate_layouts. Qed.
Print Assumptions C49_crate_layouts.
Example C49_crate_layouts_case : exists l x, @commitment_layout toy merkle_block Debug (@ce_block toy) b1 = Ret l /\ to_vesper l = Ret x.
Proof. exact c49_crate_layouts_case. Qed.

Theorem C34_finish_layout : forall (H : Hasher) md tag fs e bss
  (fed : run md fs (engine_new tag) = Ret e) (bytes : Forall2 feeds fs bss),
  digest_finish (fst (finish_layout e)) = HASH (s_pre tag (concat bss)) /\
  Forall2 step_for fs (snd (finish_layout e)).
Proof. exact c34_finish_layout. Qed.
Print Assumptions C34_finish_layout.
Example C34_finish_layout_case : exists e, @run toy Debug fields0 (@engine_new toy (str "tag")) = Ret e /\
  Forall2 (@feeds toy) fields0 bytes0 /\ snd (finish_layout e) = steps0.
Proof. exact c34_finish_layout_case. Qed.

Theorem C36_failure : forall (H : Hasher) md f e,
  (~ (exists s, step_for f s) -> run1 md f e = Panic PExpect) /\
  (forall s (name : step_for f s),
     match f with
     | FSerialized T _ => ~ not_reserved_type (ty T) -> run1 Debug f e = Panic PDebugAssert
     | FMerkle _ ls => (2 ^ 32 <= N.of_nat (length ls))%N -> run1 md f e = Panic PExpect
     | _ => True
     end /\
     (allowed_field md f -> 255 <= length (en_layout e) -> run1 md f e = Panic PExpect) /\
     (allowed_field Debug f -> length (en_layout e) < 255 -> en_finished e = true -> run1 Debug f e = Panic PDebugAssert)).
Proof. exact c36_failure. Qed.
Print Assumptions C36_failure.
Example C36_failure_case : ~ not_reserved_type (SType "CommitVerify" (Some "StrictHash"%string)) /\
  @run1 toy Debug (FSerialized (Typed (SType "CommitVerify" (Some "StrictHash"%string)) c_b32) p1) (@engine_new toy (str "tag"))
    = Panic PDebugAssert /\
  @run1 toy Release (FOption (Typed (SType "Lib" None) (c_le 1)) None) (@engine_new toy (str "tag")) = Panic PExpect.
Proof. exact c36_failure_case. Qed.
