(** Properties of encodings, the commit engine, schemes, seals, statuses and layouts
    (restated in PropEncoding.v, PropEngine.v, PropSchemes.v and PropApi.v). *)
From Verif Require Import Base BaseFacts OrdMap Strict Digest Merkle MpcAtoms MpcTree MpcBlock.
From Verif Require Import Engine Schemes Seals Api Vesper.
From Verif Require Import SpecHash SpecTree SpecMerkle SpecFull SpecValid SpecCodec SpecLayout SpecEngine SpecMisc.
From Verif Require Import HashFacts StrictProofs CodecProofs MerkleProofs EngineProofs MiscProofs.
From Verif Require Import PathProofs TheoremsMpc.
Local Open Scope nat_scope.

(** ** C33 *)
Lemma c33_roundtrip :
  lawful c_merkle_proof valid_proof /\ lawful c_merkle_block valid_block /\
  lawful c_merkle_tree valid_tree /\ lawful c_merkle_concealed valid_concealed /\
  lawful c_leaf valid_leaf /\ lawful c_merkle_node valid_node /\ lawful c_tree_node valid_tree_node.
Proof.
  split; [exact c_merkle_proof_lawful|]. split; [exact c_merkle_block_lawful|]. split; [exact c_merkle_tree_lawful|].
  split; [exact c_merkle_concealed_lawful|]. split; [exact c_leaf_lawful|]. split; [exact c_merkle_node_lawful|].
  exact c_tree_node_lawful.
Qed.
Lemma enc_node n : enc c_tree_node n = l_node n.
Proof. destruct n; reflexivity. Qed.
Lemma flat_map_ext {A B} (f g : A -> list B) l : (forall x, f x = g x) -> flat_map f l = concat (map g l).
Proof. intros E. rewrite flat_map_concat_map. f_equal. apply map_ext. exact E. Qed.
Lemma c33_layout :
  (forall p, enc c_merkle_proof p = l_proof p) /\ (forall b, enc c_merkle_block b = l_block b) /\
  (forall t, enc c_merkle_tree t = l_tree t) /\ (forall c, enc c_merkle_concealed c = l_concealed c) /\
  (forall l, enc c_leaf l = l_leaf l) /\ (forall n, enc c_merkle_node n = l_merkle_node n) /\
  (forall n, enc c_tree_node n = l_node n).
Proof.
  split; [|split; [|split; [|split; [|split; [|split]]]]].
  - intros [[] p c x]. unfold l_proof. cbn - [le]. rewrite (flat_map_ext b32 b32) by reflexivity. reflexivity.
  - intros [[] d c x e]. unfold l_block. cbn - [le c_tree_node].
    rewrite (flat_map_ext (enc c_tree_node) l_node x enc_node), <- !app_assoc.
    destruct e; reflexivity.
  - intros [[] d e c x y]. unfold l_tree. cbn - [le].
    rewrite (flat_map_ext _ (fun e => b32 (fst e) ++ b32 (snd e)) x) by reflexivity.
    rewrite (flat_map_ext _ (fun e => le 4 (fst e) ++ b32 (fst (snd e)) ++ b32 (snd (snd e))) y) by reflexivity.
    rewrite <- !app_assoc. reflexivity.
  - intros [d c r]. reflexivity.
  - intros []; reflexivity.
  - intros [[] d w a b]; reflexivity.
  - exact enc_node.
Qed.

(** ** C34 *)
Lemma c34_digest : forall (H : Hasher) md tag fs e bss
  (fed : run md fs (engine_new tag) = Ret e) (bytes : Forall2 feeds fs bss),
  digest_finish (engine_finish e) = HASH (s_pre tag (concat bss)).
Proof.
  intros H md tag fs e bss R F. destruct (run_digest md tag fs e R) as [bss' [ss [F' [_ [E _]]]]].
  rewrite E. do 3 f_equal. clear -F F'. revert bss' F'.
  induction F as [|f b fs bs Fb Fs IH]; intros bss' F'; inversion F'; subst; [reflexivity|].
  f_equal; [exact (feeds_fun f _ _ H2 Fb)|apply IH; assumption].
Qed.
Lemma c34_layout : forall (H : Hasher) md tag fs e
  (fed : run md fs (engine_new tag) = Ret e),
  (exists bss, Forall2 feeds fs bss) /\ Forall2 step_for fs (into_layout e).
Proof.
  intros H md tag fs e R. destruct (run_digest md tag fs e R) as [bss [ss [F [S [_ [E _]]]]]]. subst ss. eauto.
Qed.
Lemma c34_split_independent : forall (H : Hasher) md md' tag fs gs e e' bss css
  (fed1 : run md fs (engine_new tag) = Ret e) (fed2 : run md' gs (engine_new tag) = Ret e')
  (bytes1 : Forall2 feeds fs bss) (bytes2 : Forall2 feeds gs css) (same : concat bss = concat css),
  digest_finish (engine_finish e) = digest_finish (engine_finish e').
Proof.
  intros H md md' tag fs gs e e' bss css R R' F F' E.
  rewrite (c34_digest H md tag fs e bss R F), (c34_digest H md' tag gs e' css R' F'), E. reflexivity.
Qed.
Lemma c34_commit_id : forall (H : Hasher) A md (I : commit_encode A) v fs bss e
  (impl : ce_encode I md v (engine_new (ce_tag I)) = run md fs (engine_new (ce_tag I)))
  (fed : run md fs (engine_new (ce_tag I)) = Ret e) (bytes : Forall2 feeds fs bss),
  commit_id md I v = Ret (HASH (s_pre (ce_tag I) (concat bss))).
Proof.
  intros H A md I v fs bss e E R F. unfold commit_id, commit. rewrite E, R. cbn [bind].
  f_equal. exact (c34_digest H md (ce_tag I) fs e bss R F).
Qed.

(** ** C35 *)
Lemma c35_binding : forall (H : Hasher) md md' tag fs gs e e' bs cs Lf Lg
  (fed1 : run md fs (engine_new tag) = Ret e) (fed2 : run md' gs (engine_new tag) = Ret e')
  (kinds : Forall2 same_kind fs gs) (bytes1 : Forall2 feeds fs bs) (bytes2 : Forall2 feeds gs cs)
  (hashed1 : fields_hashed fs Lf) (hashed2 : fields_hashed gs Lg)
  (same : digest_finish (engine_finish e) = digest_finish (engine_finish e')),
  fs = gs \/ collision_in ((s_pre tag (concat bs) :: Lf) ++ (s_pre tag (concat cs) :: Lg)).
Proof. intros H md md' tag fs gs e e' bs cs Lf Lg. apply run_binding. Qed.

(** ** C36 *)
Lemma c36_defined : forall (H : Hasher) md f e,
  (exists e', run1 md f e = Ret e') <->
  length (en_layout e) < 255 /\ (md = Debug -> en_finished e = false) /\
  (exists s, step_for f s) /\ allowed_field md f.
Proof. intros H md f e. apply run1_iff. Qed.
Lemma c36_effect : forall (H : Hasher) md f e e' (fed : run1 md f e = Ret e'),
  exists s bs, step_for f s /\ feeds f bs /\
    en_layout e' = en_layout e ++ [s] /\ en_hasher e' = en_hasher e ++ bs /\ en_finished e' = en_finished e.
Proof.
  intros H md f e e' E. apply run1_inv in E as [[_ [_ [s [bs [S [F ->]]]]]] _]. exists s, bs. cbn. auto.
Qed.
Lemma c36_finished : forall (H : Hasher) f e,
  (forall e', run1 Debug f (set_finished e) <> Ret e') /\
  (forall e', run1 Debug f (snd (as_layout e)) <> Ret e') /\
  run1 Release f (set_finished e) =
    match run1 Release f e with Ret e' => Ret (set_finished e') | Panic p => Panic p end.
Proof.
  intros H f e. split; [|split].
  - intros e' E. assert (X : exists e', run1 Debug f (set_finished e) = Ret e') by eauto.
    apply run1_iff in X as [_ [X _]]. specialize (X eq_refl). discriminate.
  - intros e' E. assert (X : exists e', run1 Debug f (snd (as_layout e)) = Ret e') by eauto.
    apply run1_iff in X as [_ [X _]]. specialize (X eq_refl). discriminate.
  - exact (run1_release_finished f e true).
Qed.
Lemma c36_limit : forall (H : Hasher) md f e, length (en_layout e) = 255 ->
  forall e', run1 md f e <> Ret e'.
Proof.
  intros H md f e L e' E. assert (X : exists e', run1 md f e = Ret e') by eauto.
  apply run1_iff in X as [X _]. lia.
Qed.
Lemma c36_sequence : forall (H : Hasher) md tag fs,
  (exists e, run md fs (engine_new tag) = Ret e) <->
  length fs <= 255 /\ Forall (fun f => exists s, step_for f s) fs /\ Forall (allowed_field md) fs.
Proof.
  intros H md tag fs. split.
  - intros [e E]. apply run_inv in E as [ss [bss [S [_ [A [_ [_ L]]]]]]]. split; [|split; [|exact A]].
    + cbn in L. destruct L as [L| ->]; cbn; lia.
    + clear -S. induction S; constructor; eauto.
  - intros [L [S A]]. assert (X : exists ss, Forall2 step_for fs ss).
    { clear -S. induction S as [|f fs [s Sf] Fs [ss IH]]; [exists []; constructor|]. exists (s :: ss). constructor; assumption. }
    destruct X as [ss X]. apply (run_ok md fs (engine_new tag) ss X A); [reflexivity|cbn; lia].
Qed.

(** ** C37 *)
Lemma c37_strict : forall (H : Hasher) A md tag idty (T : typed A) f v
  (name : has_fqn (ty T) f) (type : md = Debug -> not_reserved_type (ty T)),
  commit_id md (derive_strict tag idty T) v = Ret (HASH (s_pre tag (enc (ty_codec T) v))) /\
  exists e, commit md (derive_strict tag idty T) v = Ret e /\ into_layout e = [StSerialized f].
Proof.
  intros H A md tag idty T f v N R. pose proof (derive_strict_commit md tag idty T f v N R) as E. split.
  - unfold commit_id. rewrite E. cbn [bind]. rewrite one_step_id. reflexivity.
  - eexists. split; [exact E|reflexivity].
Qed.
Lemma c37_transparent : forall (H : Hasher) A B md tag idty (T : typed B) (inner : A -> B) f v
  (name : has_fqn (ty T) f) (type : md = Debug -> not_reserved_type (ty T)),
  commit_id md (derive_transparent tag idty T inner) v = Ret (HASH (s_pre tag (enc (ty_codec T) (inner v)))) /\
  exists e, commit md (derive_transparent tag idty T inner) v = Ret e /\ into_layout e = [StSerialized f].
Proof.
  intros H A B md tag idty T inner f v N R. pose proof (derive_transparent_commit md tag idty T inner f v N R) as E. split.
  - unfold commit_id. rewrite E. cbn [bind]. rewrite one_step_id. reflexivity.
  - eexists. split; [exact E|reflexivity].
Qed.
Lemma c37_conceal : forall (H : Hasher) A B C md tag idty (c1 : mode -> A -> outcome B) t2 (c2 : mode -> B -> outcome C)
    CT f v b c (name : has_fqn t2 f) (first : c1 md v = Ret b) (second : c2 md b = Ret c),
  commit_id md (derive_conceal tag idty c1 t2 c2 CT) v = Ret (HASH (s_pre tag (enc CT c))) /\
  exists e, commit md (derive_conceal tag idty c1 t2 c2 CT) v = Ret e /\ into_layout e = [StConcealed f].
Proof.
  intros H A B C md tag idty c1 t2 c2 CT f v b c N E1 E2.
  pose proof (derive_conceal_commit md tag idty c1 t2 c2 CT f v b c N E1 E2) as E. split.
  - unfold commit_id. rewrite E. cbn [bind]. rewrite one_step_id. reflexivity.
  - eexists. split; [exact E|reflexivity].
Qed.
Lemma c37_merklize : forall (H : Hasher) A md tag idty leaf_ty (leaves : A -> list bytes32) f v
  (name : has_fqn leaf_ty f) (bound : (N.of_nat (length (leaves v)) < 2 ^ 32)%N),
  exists r, merkle_root_of (leaves v) r /\
  commit_id md (derive_merklize tag idty leaf_ty leaves) v = Ret (HASH (s_pre tag (b32 r))) /\
  exists e, commit md (derive_merklize tag idty leaf_ty leaves) v = Ret e /\ into_layout e = [StMerklized f].
Proof.
  intros H A md tag idty leaf_ty leaves f v N B.
  destruct (derive_merklize_commit md tag idty leaf_ty leaves f v N B) as [r [R E]]. exists r. split; [exact R|]. split.
  - unfold commit_id. rewrite E. cbn [bind]. rewrite one_step_id. reflexivity.
  - eexists. split; [exact E|reflexivity].
Qed.
Lemma c37_idempotent : forall (H : Hasher) A md tag idty (conceal : A -> A) t2 (CT : codec A) f v
  (name : has_fqn t2 f) (idem : forall x, conceal (conceal x) = conceal x),
  let I := derive_conceal tag idty (fun _ x => Ret (conceal x)) t2 (fun _ x => Ret (conceal x)) CT in
  commit_id md I v = commit_id md I (conceal v) /\
  commit_id md I v = Ret (HASH (s_pre tag (enc CT (conceal v)))).
Proof.
  intros H A md tag idty conceal t2 CT f v N ID I.
  destruct (derive_conceal_idem md tag idty conceal t2 CT f v N ID) as [h [E1 [E2 E3]]].
  unfold I. rewrite E1, E2, E3. auto.
Qed.
Lemma c37_crate_types : forall (H : Hasher) md,
  (forall l, commit_id md ce_leaf l = Ret (leaf_commit_id l)) /\
  (forall n, commit_id md ce_merkle_node n = Ret (node_commit_id n)) /\
  (forall c, commit_id md ce_concealed c = Ret (concealed_commit_id c)) /\
  (forall b, commit_id md ce_block b = block_commit_id md b) /\
  (forall t, commit_id md ce_tree t = tree_commit_id md t).
Proof.
  intros H md. split; [apply ce_leaf_id|]. split; [apply ce_node_id|]. split; [apply ce_concealed_id|].
  split; [apply ce_block_id|apply ce_tree_id].
Qed.

(** ** C38 *)
Lemma c38_stream : forall max k e datas
  (size : prefix_size max k) (max_ok : (max < 2 ^ 32)%N)
  (short : Forall (fun d => (N.of_nat (length d) <= max)%N) datas),
  inputs_with_len max e datas = Ret (e ++ framed k datas).
Proof. intros max k e datas P M F. exact (inputs_ok max k datas e P M F). Qed.
Lemma c38_unambiguous : forall max e xs ys s
  (max_ok : (max < 2 ^ 32)%N)
  (short1 : Forall (fun d => (N.of_nat (length d) <= max)%N) xs)
  (short2 : Forall (fun d => (N.of_nat (length d) <= max)%N) ys)
  (fed1 : inputs_with_len max e xs = Ret s) (fed2 : inputs_with_len max e ys = Ret s),
  xs = ys.
Proof. intros max e xs ys s M F1 F2 E1 E2. exact (inputs_injective max e xs ys s s M F1 F2 E1 E2 eq_refl). Qed.
Lemma c38_max_limit : forall max e d, (2 ^ 32 <= max)%N -> input_with_len max e d = Panic PUnreachable.
Proof. apply input_too_big_max. Qed.
Lemma c38_too_long_24 : forall max e d
  (size : (2 ^ 16 <= max < 2 ^ 24)%N) (long : (2 ^ 24 <= N.of_nat (length d) < 2 ^ 32)%N),
  input_with_len max e d = Panic PAssert.
Proof. apply input_24_too_long. Qed.
Lemma c38_too_long_refuted : forall max k e,
  prefix_size max k -> k = 1 \/ k = 2 \/ k = 4 ->
  exists xs ys s, xs <> ys /\ inputs_with_len max e xs = Ret s /\ inputs_with_len max e ys = Ret s.
Proof.
  intros max k e P K. destruct (input_collision max k e P K) as [d [n [e' [N [E1 E2]]]]].
  exists [d], (repeat [] n), e'. split; [|auto]. intros X. destruct n as [|[|n]]; cbn in X; try discriminate.
  injection X as ->. congruence.
Qed.

(** ** C39 *)
Lemma c39_decode : forall len val l a r,
  dec (c_reserved len val) l = Some (a, r) <-> a = repeat val len /\ l = repeat val len ++ r.
Proof.
  intros len val l a r. destruct (reserved_lawful len val) as [RT CAN]. split.
  - intros E. apply CAN in E as [-> ->]. cbn. auto.
  - intros [-> ->]. exact (RT (repeat val len) r eq_refl).
Qed.
Lemma c39_from_array : forall len val v,
  (v = repeat val len -> reserved_from len val v = Ret v) /\
  (v <> repeat val len -> reserved_from len val v = Panic PAssert).
Proof. apply reserved_from_iff. Qed.
Lemma c39_one_commitment : forall (H : Hasher) len val md v w
  (v_made : reserved_from len val v = Ret v) (w_made : reserved_from len val w = Ret w),
  commit_id md (ce_reserved len val) v = commit_id md (ce_reserved len val) w /\
  commit_id md (ce_reserved len val) v =
    Ret (HASH (s_pre (str "urn:ubideco:strict-types:value-hash#2024-02-10") (repeat val len))).
Proof.
  intros H len val md v w V W.
  assert (X : forall x, reserved_from len val x = Ret x -> x = repeat val len).
  { intros x E. destruct (bytes_eq_dec x (repeat val len)) as [Q|Q]; [exact Q|].
    destruct (reserved_from_iff len val x) as [_ R]. rewrite (R Q) in E. discriminate. }
  rewrite !reserved_commit, (X v V), (X w W). auto.
Qed.

(** ** C40 *)
Lemma c40_commit_verify : forall Msg Cmt (I : commit_verify Msg Cmt) self msg
  (eq : forall x y, cv_eq I x y = true <-> x = y),
  (cv_verify I self msg = Ok tt <-> cv_commit I msg = self) /\
  (cv_verify I self msg = Err InvalidCommitment <-> cv_commit I msg <> self) /\
  cv_verify I self msg <> Err InvalidMessage.
Proof. intros Msg Cmt I self msg E. apply cv_verify_iff. exact E. Qed.
Lemma c40_try_commit_verify : forall Msg Cmt E (I : try_commit_verify Msg Cmt E) self msg
  (eq : forall x y, tv_eq I x y = true <-> x = y),
  (tv_verify I self msg = Ret (Ok tt) <-> tv_try_commit I msg = Ret (Ok self)) /\
  (tv_verify I self msg = Ret (Err InvalidCommitment) <->
     exists c, tv_try_commit I msg = Ret (Ok c) /\ c <> self) /\
  (tv_verify I self msg = Ret (Err InvalidMessage) <-> exists e, tv_try_commit I msg = Ret (Err e)) /\
  (forall p, tv_verify I self msg = Panic p <-> tv_try_commit I msg = Panic p).
Proof. intros Msg Cmt E I self msg Q. apply tv_verify_iff. exact Q. Qed.

(** ** C41 *)
Lemma c41_verdict : forall Msg Cont Proof E (I : embed_scheme Msg Cont Proof E) self msg proof r,
  em_verify I self msg proof = r <-> em_verdict I self msg proof r.
Proof. intros. apply em_verify_iff. Qed.
Lemma c41_complete : forall Msg Cont Proof E (I : embed_scheme Msg Cont Proof E) c msg c' p
  (lawful : em_lawful I) (committed : em_commit I c msg = Ok (c', p)), em_verify I c' msg p = Ok tt.
Proof. intros. eapply em_complete; eassumption. Qed.
Lemma c41_sound : forall Msg Cont Proof E (I : embed_scheme Msg Cont Proof E) self msg msg' proof
  (ok1 : em_verify I self msg proof = Ok tt) (ok2 : em_verify I self msg' proof = Ok tt),
  exists c c1 p1 c2 p2, em_restore I proof self = Ok c /\
    em_commit I c msg = Ok (c1, p1) /\ em_commit I c msg' = Ok (c2, p2) /\
    em_cont_eq I self c1 = true /\ em_cont_eq I self c2 = true /\
    em_proof_eq I p1 proof = true /\ em_proof_eq I p2 proof = true.
Proof. intros. eapply em_sound; eassumption. Qed.
Lemma c41_never_proof_mismatch : forall Msg Cont Proof E (I : embed_scheme Msg Cont Proof E) self msg proof,
  em_restore I proof self <> Err EvProofMismatch -> em_verify I self msg proof <> Err EvProofMismatch.
Proof. intros. apply em_no_mismatch. assumption. Qed.

(** ** C42 *)
Lemma c42_verdict : forall Msg Src Suppl Cmt Proof E (I : convolve_scheme Msg Src Suppl Cmt Proof E) proof msg cmt r,
  cc_verify I proof msg cmt = r <-> cc_verdict I proof msg cmt r.
Proof. intros. apply cc_verify_iff. Qed.
Lemma c42_complete : forall Msg Src Suppl Cmt Proof E (I : convolve_scheme Msg Src Suppl Cmt Proof E) src s msg c p
  (lawful : cc_lawful I) (committed : cc_commit I src s msg = Ok (c, p)), cc_verify I p msg c = Ok tt.
Proof. intros. eapply cc_complete; eassumption. Qed.

(** ** C43, C44 *)
Lemma c43_validity : forall Issue Fail Warn Info (s : status Issue Fail Warn Info),
  (status_validity s = Invalid <-> failures s <> []) /\
  (status_validity s = SealIssues <-> failures s = [] /\ seal_issues s <> []) /\
  (status_validity s = Valid <-> failures s = [] /\ seal_issues s = []).
Proof. intros. apply validity_iff. Qed.
Lemma c43_only_worse : forall Issue Fail Warn Info (evs : list event) (s : status Issue Fail Warn Info),
  severity (status_validity s) <= severity (status_validity (fold_left apply_event evs s)).
Proof. intros. apply events_worse. Qed.
Lemma c43_start : forall Issue Fail Warn Info (f : Fail) (l : list Fail),
  status_validity (@status_new Issue Fail Warn Info) = Valid /\
  status_validity (@from_failure Issue Fail Warn Info f) = Invalid /\
  failures (@from_failure Issue Fail Warn Info f) = [f] /\
  failures (@status_from_iter Issue Fail Warn Info l) = l /\
  (status_validity (@status_from_iter Issue Fail Warn Info l) = Valid <-> l = []).
Proof.
  intros. repeat (split; [reflexivity|]). destruct l; cbn; split; congruence.
Qed.
Lemma c44_monoid : forall Issue Fail Warn Info (a b c : status Issue Fail Warn Info),
  add_assign (add_assign a b) c = add_assign a (add_assign b c) /\
  add_assign status_new a = a /\ add_assign a status_new = a /\
  status_validity (add_assign a b) = worse (status_validity a) (status_validity b).
Proof.
  intros. split; [apply add_assign_assoc|]. split; [apply add_assign_new_l|]. split; [apply add_assign_new_r|].
  apply validity_merge.
Qed.
Lemma c44_events : forall Issue Fail Warn Info (evs : list event) (s : status Issue Fail Warn Info),
  let s' := fold_left apply_event evs s in
  seal_issues s' = seal_issues s ++ concat (map issues_of evs) /\
  failures s' = failures s ++ concat (map fails_of evs) /\
  warnings s' = warnings s ++ concat (map warns_of evs) /\
  info s' = info s ++ concat (map infos_of evs).
Proof. intros. apply apply_events_spec. Qed.

(** ** C45 *)
Lemma c45_report : forall Issue Fail Warn Info Seal Res (resolve : Res -> Seal -> result unit Issue * Res)
    (self : client_data Issue Fail Warn Info Seal) items r st r'
  (validated : client_side_validate resolve self items r = (st, r')),
  exists xss, Forall2 (fun it xs => length xs = length (cd_seals it)) items xss /\
    resolves resolve r (concat (map cd_seals items)) (concat xss) r' /\
    st = joined (cd_consistency self) (reports items xss).
Proof. intros. apply client_side_validate_spec. assumption. Qed.
Lemma c45_valid : forall Issue Fail Warn Info Seal Res (resolve : Res -> Seal -> result unit Issue * Res)
    (self : client_data Issue Fail Warn Info Seal) items r st r' xs
  (validated : client_side_validate resolve self items r = (st, r'))
  (resolved : resolves resolve r (concat (map cd_seals items)) xs r'),
  status_validity st = Valid <->
   status_validity (cd_consistency self) = Valid /\
   Forall (fun it => status_validity (cd_consistency it) = Valid) items /\ Forall (fun x => x = Ok tt) xs.
Proof. intros. eapply client_side_validate_valid; eassumption. Qed.
Lemma c45_own_seals_ignored : forall Issue Fail Warn Info Seal Res (resolve : Res -> Seal -> result unit Issue * Res)
    (consistency : status Issue Fail Warn Info) seals seals' items r,
  client_side_validate resolve (ClientData seals consistency) items r =
  client_side_validate resolve (ClientData seals' consistency) items r.
Proof. reflexivity. Qed.

(** ** C46 *)
Lemma c46_order_refuted :
  (exists a b : status unit unit unit unit,
     validity_cmp (status_validity a) (status_validity b) = Lt /\
     status_validity (add_assign a b) = status_validity a) /\
  (exists a b : status unit unit unit unit,
     validity_cmp (status_validity a) (status_validity b) = Lt /\
     status_validity (add_assign a b) = status_validity b).
Proof.
  split.
  - exists (Status [] [tt] [] []), (Status [] [] [] []). split; reflexivity.
  - exists (Status [] [] [] []), (Status [tt] [] [] []). split; reflexivity.
Qed.
Lemma c46_order : forall a b, validity_cmp a b =
  match a, b with
  | Invalid, Invalid | Valid, Valid | SealIssues, SealIssues => Eq
  | Invalid, _ | Valid, SealIssues => Lt
  | _, _ => Gt
  end.
Proof. intros [] []; reflexivity. Qed.

(** ** C47 *)
Lemma c47_verdict : forall Seal Msg Pub Cli Proof PubId PubErr CliErr
    (P : seal_protocol Seal Msg Pub Cli Proof PubId PubErr CliErr) pub cli seals msg r,
  verify_seals_closing P (witness_new pub cli) seals msg = r <-> closing_verdict P pub cli seals msg r.
Proof. intros. apply verify_seals_iff. Qed.
Lemma c47_one_seal : forall Seal Msg Pub Cli Proof PubId PubErr CliErr
    (P : seal_protocol Seal Msg Pub Cli Proof PubId PubErr CliErr) pub cli seal msg r,
  verify_seal_closing P (witness_new pub cli) seal msg = r <-> closing_verdict P pub cli [seal] msg r.
Proof. intros. apply verify_seals_iff. Qed.

(** ** C48 *)
Lemma c48_one_message : forall Seal Msg Pub Cli Proof PubId PubErr CliErr
    (P : seal_protocol Seal Msg Pub Cli Proof PubId PubErr CliErr) pub cli seals seals' m m' u u'
  (one_proof : forall p q v w, sl_verify_commitment P pub p = Ok v -> sl_verify_commitment P pub q = Ok w -> p = q)
  (injective : forall x y p, sl_convolve P cli x = Ok p -> sl_convolve P cli y = Ok p -> x = y)
  (closed1 : verify_seals_closing P (witness_new pub cli) seals m = Ok u)
  (closed2 : verify_seals_closing P (witness_new pub cli) seals' m' = Ok u'),
  m = m'.
Proof. intros. eapply seal_one_message; eassumption. Qed.
Lemma c48_no_witness : forall Seal Msg Pub PubId PubErr
    (P : seal_protocol Seal Msg Pub no_witness Msg PubId PubErr Empty_set) pub cli cli' seals seals' m m' u u'
  (client : sl_convolve P = no_witness_convolve)
  (one_proof : forall p q v w, sl_verify_commitment P pub p = Ok v -> sl_verify_commitment P pub q = Ok w -> p = q)
  (closed1 : verify_seals_closing P (witness_new pub cli) seals m = Ok u)
  (closed2 : verify_seals_closing P (witness_new pub cli') seals' m' = Ok u'),
  m = m'.
Proof.
  intros Seal Msg Pub PubId PubErr P pub [] [] seals seals' m m' u u' C ONE V V'.
  refine (seal_one_message P pub tt seals seals' m m' u u' ONE _ V V').
  rewrite C. unfold no_witness_convolve. congruence.
Qed.
Lemma c48_merkle_proofs : forall (H : Hasher) Seal Pub Cli PubId PubErr CliErr
    (P : seal_protocol Seal bytes32 Pub Cli bytes32 PubId PubErr CliErr)
    md (proof_of : Cli -> merkle_proof) pid pub cli cli' seals seals' m m' u u'
  (client : forall w x c, sl_convolve P w x = Ok c -> convolve md (proof_of w) pid x = Ret (Ok c))
  (valid1 : valid_proof (proof_of cli)) (valid2 : valid_proof (proof_of cli'))
  (one_proof : forall p q v w, sl_verify_commitment P pub p = Ok v -> sl_verify_commitment P pub q = Ok w -> p = q)
  (closed1 : verify_seals_closing P (witness_new pub cli) seals m = Ok u)
  (closed2 : verify_seals_closing P (witness_new pub cli') seals' m' = Ok u'),
  m = m' \/ collision_in (proof_pre (proof_of cli) pid m ++ proof_pre (proof_of cli') pid m').
Proof.
  intros H Seal Pub Cli PubId PubErr CliErr P md pf pid pub cli cli' seals seals' m m' u u' C W1 W2 ONE V V'.
  apply closing_ok in V as [_ [c [C1 A1]]]. apply closing_ok in V' as [_ [c' [C2 A2]]].
  pose proof (ONE _ _ _ _ A1 A2) as E. subst c'.
  exact (c01_one_message H md md (pf cli) (pf cli') pid m m' c W1 W2 (C _ _ _ C1) (C _ _ _ C2)).
Qed.

(** ** C49 *)
Lemma vprint_child s : vprint (child s) = step_text s.
Proof. destruct s as [f|[| |k] z f|f|f|f]; reflexivity. Qed.
Lemma c49_text : forall l (steps : length (cl_fields l) <= 255),
  exists x, to_vesper l = Ret x /\ vprint x = layout_text l.
Proof.
  intros l L. eexists. split; [apply vesper_ret; exact L|]. unfold layout_text. cbn [vprint map attr_name attr_value].
  f_equal. rewrite map_map. apply map_ext. exact vprint_child.
Qed.
Lemma c49_identifies : forall l m x y
  (left : to_vesper l = Ret x) (right : to_vesper m = Ret y),
  vprint x = vprint y <-> forget_libs l = forget_libs m.
Proof. intros. apply vesper_iff; assumption. Qed.
Lemma c49_libs_refuted : exists l m x, l <> m /\ to_vesper l = Ret x /\ (exists y, to_vesper m = Ret y /\ vprint x = vprint y).
Proof.
  exists (CommitLayout (Fqn "A" "Id") [] [StSerialized (Fqn "A" "T")]),
         (CommitLayout (Fqn "A" "Id") [] [StSerialized (Fqn "B" "T")]).
  eexists. split; [discriminate|split; [reflexivity|]]. eexists. split; reflexivity.
Qed.
Lemma c49_crate_layouts : forall (H : Hasher) md,
  let fq := Fqn "CommitVerify" in
  let node_tag := str "urn:ubideco:merkle:node#2024-01-31" in
  let mpc_tag := str "urn:ubideco:mpc:commitment#2024-01-31" in
  (forall l, commitment_layout md ce_leaf l = Ret (CommitLayout (fq "MerkleHash"%string) node_tag [StSerialized (fq "Leaf"%string)])) /\
  (forall n, commitment_layout md ce_merkle_node n =
     Ret (CommitLayout (fq "MerkleHash"%string) node_tag [StSerialized (fq "MerkleNode"%string)])) /\
  (forall c, commitment_layout md ce_concealed c =
     Ret (CommitLayout (fq "Commitment"%string) mpc_tag [StSerialized (fq "MerkleConcealed"%string)])) /\
  (forall b c, block_commit_id md b = Ret c ->
     commitment_layout md ce_block b = Ret (CommitLayout (fq "Commitment"%string) mpc_tag [StConcealed (fq "MerkleConcealed"%string)])) /\
  (forall t c, tree_commit_id md t = Ret c ->
     commitment_layout md ce_tree t = Ret (CommitLayout (fq "Commitment"%string) mpc_tag [StConcealed (fq "MerkleConcealed"%string)])).
Proof.
  intros H md. cbv zeta. split; [|split; [|split; [|split]]].
  - intros l. destruct md; reflexivity.
  - intros l. destruct md; reflexivity.
  - intros l. destruct md; reflexivity.
  - intros b c E. unfold block_commit_id in E. destruct (block_conceal md b) as [x|p] eqn:X; [|discriminate].
    unfold commitment_layout, ce_block.
    rewrite (derive_conceal_commit md _ _ _ _ _ _ (Fqn lib_commit_verify "MerkleConcealed") b x x (named_fqn "MerkleConcealed") X eq_refl).
    reflexivity.
  - intros b c E. unfold tree_commit_id in E. destruct (tree_conceal md b) as [x|p] eqn:X; [|discriminate].
    unfold commitment_layout, ce_tree.
    rewrite (derive_conceal_commit md _ _ _ _ _ _ (Fqn lib_commit_verify "MerkleConcealed") b x x (named_fqn "MerkleConcealed") X eq_refl).
    reflexivity.
Qed.
