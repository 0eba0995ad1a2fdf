(** Merklization and domain separation: C22-C26, C28 *)
From Coq Require Import Permutation Sorting.Sorted.
From Verif Require Import Base BaseFacts OrdMap Strict Digest Merkle MpcAtoms MpcTree MpcBlock.
From Verif Require Import Engine EngineIo Schemes Seals Api Vesper Sha256 Ripemd Dumb Text Loops Orders Suites MpcTests Serde Steps Work Costs.
From Verif Require Import SpecHash SpecTree SpecMerkle SpecFull SpecValid SpecCommit SpecDerived SpecBlock.
From Verif Require Import SpecBuoy SpecStrings SpecCodec SpecLayout SpecEngine SpecMisc SpecSha SpecDerive SpecLocal SpecSession SpecRipemd SpecEnd Stl SpecStl SpecQuery SpecCount SpecText SpecOrders SpecFind SpecForm SpecGame SpecHideGame SpecViewGame SpecBlockGame SpecSuites SpecExtend SpecCompress SpecTests SpecSerde SpecTalk SpecMany SpecDepth SpecTarget SpecIdGame SpecLate SpecTransfer SpecNest SpecScript SpecSalt SpecOpen SpecChoice SpecPick SpecOffer SpecPlay SpecSeek SpecShare SpecSettled SpecResting SpecDraw SpecFuse SpecFeed.
From Verif Require Import TheoremsMpc TheoremsBlock TheoremsMerkle TheoremsMisc TheoremsMore TheoremsExt TheoremsAdv TheoremsLocal TheoremsSession TheoremsHash TheoremsHide TheoremsEnd TheoremsStl TheoremsQuery TheoremsCount TheoremsText TheoremsFrame TheoremsLoops TheoremsTight TheoremsOrders TheoremsFind TheoremsForm TheoremsGame TheoremsHideGame TheoremsViewGame TheoremsBlockGame TheoremsSuites TheoremsExtend TheoremsCompress TheoremsTests TheoremsSerde TheoremsTalk TheoremsMany TheoremsDepth TheoremsWork TheoremsTarget TheoremsAttack TheoremsIdGame TheoremsLate TheoremsTransfer TheoremsNest TheoremsCosts TheoremsScript TheoremsSalt TheoremsOpen TheoremsChoice TheoremsPick TheoremsOffer TheoremsPlay TheoremsSeek TheoremsShare TheoremsSettled TheoremsResting TheoremsDraw TheoremsFuse TheoremsFeed.
From Verif Require Import CasesMpc CasesMisc CasesMore CasesExt CasesAdv CasesLocal CasesSession CasesHash CasesHide CasesEnd CasesStl CasesQuery CasesCount CasesText CasesFrame CasesLoops CasesTight CasesOrders CasesFind CasesForm CasesGame CasesHideGame CasesViewGame CasesBlockGame CasesSuites CasesExtend CasesCompress CasesTests CasesSerde CasesTalk CasesMany CasesDepth CasesWork CasesTarget CasesAttack CasesIdGame CasesLate CasesTransfer CasesNest CasesCosts CasesScript CasesSalt CasesOpen CasesChoice CasesPick CasesOffer CasesPlay CasesSeek CasesShare CasesSettled CasesResting CasesDraw CasesFuse CasesFeed.
Local Open Scope nat_scope.

Theorem C22_total : forall (H : Hasher) nodes (bound : (N.of_nat (length nodes) < 2 ^ 32)%N),
  exists r, merklize nodes = Ret r.
Proof. exact c22_total. Qed.
Print Assumptions C22_total.
Example C22_total_case : exists r, @merklize toy [p1; p2; p3] = Ret r.
Proof. exact c22_total_case. Qed.

Theorem C22_limit : forall (H : Hasher) nodes,
  (exists r, merklize nodes = Ret r) <-> (N.of_nat (length nodes) < 2 ^ 32)%N.
Proof. exact c22_limit. Qed.
Print Assumptions C22_limit.
(* Hypotheses met: see C22_total_case. *)

Theorem C23_balanced : forall (H : Hasher) nodes r,
  (N.of_nat (length nodes) < 2 ^ 32)%N ->
  merklize nodes = Ret r <-> merkle_root_of nodes r.
Proof. exact c23_balanced. Qed.
Print Assumptions C23_balanced.
Example C23_balanced_case :
  let t := TSplit (TTwo p1 p2) (TOne p3) in
  splits [p1; p2; p3] t /\ @merkle_root_of toy [p1; p2; p3] (@mthash toy 3 0 t) /\
  @merklize toy [p1; p2; p3] = Ret (@mthash toy 3 0 t).
Proof. exact c23_balanced_case. Qed.

Theorem C23_perfect : forall (H : Hasher) k f (small : k <= 31),
  merklize (map (fun i => f (N.of_nat i)) (seq 0 (2 ^ k))) = Ret (perfect (2 ^ N.of_nat k) 0 k 0 f).
Proof. exact c23_perfect. Qed.
Print Assumptions C23_perfect.
Example C23_perfect_case : @merklize toy [p1; p2; p3; p5] =
  Ret (@perfect toy 4 0 2 0 (fun i => nth (N.to_nat i) [p1; p2; p3; p5] p1)).
Proof. exact c23_perfect_case. Qed.

Theorem C24_binding : forall (H : Hasher) xs ys r L L'
  (root1 : merklize xs = Ret r) (root2 : merklize ys = Ret r)
  (hashed1 : root_hashed xs L) (hashed2 : root_hashed ys L')
  (not_one : length xs = 1 <-> length ys = 1),
  xs = ys \/ collision_in (L ++ L').
Proof. exact c24_binding. Qed.
Print Assumptions C24_binding.
Example C24_binding_case : exists L L', @merklize flat [p1; p2] = Ret cflat /\ @merklize flat [p3; p1; p2] = Ret cflat /\
  @root_hashed flat [p1; p2] L /\ @root_hashed flat [p3; p1; p2] L' /\
  @merklize toy [p1; p2] <> @merklize toy [p3; p1; p2].
Proof. exact c24_binding_case. Qed.

Theorem C24_mpc_leaves : forall (H : Hasher) ls ls' r L L'
  (valid1 : Forall valid_leaf ls) (valid2 : Forall valid_leaf ls')
  (root1 : merklize (map leaf_commit_id ls) = Ret r) (root2 : merklize (map leaf_commit_id ls') = Ret r)
  (hashed1 : root_hashed (map leaf_commit_id ls) L) (hashed2 : root_hashed (map leaf_commit_id ls') L'),
  ls = ls' \/ collision_in (map leaf_string ls ++ map leaf_string ls' ++ L ++ L').
Proof. exact c24_mpc_leaves. Qed.
Print Assumptions C24_mpc_leaves.
Example C24_mpc_leaves_case :
  let ls := [Inhabited p1 m1] in let ls' := [Entropy 7 0; Inhabited p1 m1] in
  exists L L', Forall valid_leaf ls /\ Forall valid_leaf ls' /\
  @merklize flat (map (@leaf_commit_id flat) ls) = Ret cflat /\ @merklize flat (map (@leaf_commit_id flat) ls') = Ret cflat /\
  @root_hashed flat (map (@leaf_commit_id flat) ls) L /\ @root_hashed flat (map (@leaf_commit_id flat) ls') L'.
Proof. exact c24_mpc_leaves_case. Qed.

Theorem C25_strings : forall (H : Hasher),
  (forall l, leaf_commit_id l = HASH (leaf_string l)) /\
  (forall n, node_commit_id n = HASH (node_string n)) /\
  (forall c, concealed_commit_id c = HASH (concealed_string c)).
Proof. exact c25_strings. Qed.
Print Assumptions C25_strings.

Theorem C25_leaf_not_node : forall (H : Hasher) l n, leaf_string l <> node_string n.
Proof. exact c25_leaf_not_node. Qed.
Print Assumptions C25_leaf_not_node.

Theorem C25_leaf_kinds : forall (H : Hasher) p m e i, leaf_string (Inhabited p m) <> leaf_string (Entropy e i).
Proof. exact c25_leaf_kinds. Qed.
Print Assumptions C25_leaf_kinds.

Theorem C25_injective : forall (H : Hasher),
  (forall l l', valid_leaf l -> valid_leaf l' -> leaf_string l = leaf_string l' -> l = l') /\
  (forall n n', valid_node n -> valid_node n' -> node_string n = node_string n' -> n = n') /\
  (forall c c', valid_concealed c -> valid_concealed c' -> concealed_string c = concealed_string c' -> c = c').
Proof. exact c25_injective. Qed.
Print Assumptions C25_injective.

Theorem C25_tags : forall (H : Hasher) tag1 tag2 data1 data2,
  tag1 <> tag2 ->
  tagged tag1 data1 = HASH (s_pre tag1 data1) /\
  (s_pre tag1 data1 = s_pre tag2 data2 -> collision_in [tag1; tag2]) /\
  (tagged tag1 data1 = tagged tag2 data2 ->
     collision_in [tag1; tag2; s_pre tag1 data1; s_pre tag2 data2]).
Proof. exact c25_tags. Qed.
Print Assumptions C25_tags.
Example C25_tags_case : str "a" <> str "b" /\ @tagged toy (str "a") [x00] <> @tagged toy (str "b") [x00] /\
  @tagged flat (str "a") [x00] = @tagged flat (str "b") [x00].
Proof. exact c25_tags_case. Qed.

Theorem C25_commitment_not_node : forall (H : Hasher) c l n,
  concealed_string c <> leaf_string l /\ concealed_string c <> node_string n.
Proof. exact c25_commitment_not_node. Qed.
Print Assumptions C25_commitment_not_node.

Theorem C26_one_leaf_refuted : forall (H : Hasher) a b, exists n,
  valid_node n /\ merklize [node_commit_id n] = merklize [a; b] /\ (exists r, merklize [a; b] = Ret r) /\
  [node_commit_id n] <> [a; b].
Proof. exact c26_one_leaf_refuted. Qed.
Print Assumptions C26_one_leaf_refuted.

Theorem C28_subtree : forall t d first later
  (frontier : fdepths d t = first :: later),
  pushes (buoy_new first) later = Buoy d None /\
  buoy_level (pushes (buoy_new first) later) = d /\
  forall pre suf, later = pre ++ suf -> suf <> [] -> d < buoy_level (pushes (buoy_new first) pre).
Proof. exact c28_subtree. Qed.
Print Assumptions C28_subtree.
Example C28_subtree_case : fdepths 1 (PBr (PConc p1) (PBr (PLeaf p2 m1) (PLeaf p3 m1))) = [2; 3; 3] /\
  pushes (buoy_new 2) [3; 3] = Buoy 1 None /\ buoy_level (pushes (buoy_new 2) [3]) = 3.
Proof. exact c28_subtree_case. Qed.

Theorem C28_level : forall t d first later pre suf
  (frontier : fdepths d t = first :: later) (so_far : later = pre ++ suf),
  hd_error (pending (first :: pre)) = Some (buoy_level (pushes (buoy_new first) pre)).
Proof. exact c28_level. Qed.
Print Assumptions C28_level.
Example C28_level_case : fdepths 1 (PBr (PConc p1) (PBr (PLeaf p2 m1) (PBr (PLeaf p3 m1) (PConc p1)))) = [2; 3; 4; 4] /\
  pending [2; 3; 4] = [4; 3; 2] /\ pending [2; 3; 4; 4] = [1] /\ buoy_level (pushes (buoy_new 2) [3; 4]) = 4.
Proof. exact c28_level_case. Qed.

Theorem C28_surfaced : forall b stack k,
  match buoy_push (Buoy b stack) k with
  | (true, Buoy b' stack') => b = S b' /\ stack' = None
  | (false, Buoy b' _) => b' = b
  end.
Proof. exact c28_surfaced. Qed.
Print Assumptions C28_surfaced.
