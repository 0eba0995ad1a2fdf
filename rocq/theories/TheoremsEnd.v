(** C82: two clients accepting histories against one medium. *)
From Verif Require Import Base BaseFacts Digest MpcAtoms MpcTree MpcBlock Engine Seals Api Strict.
From Verif Require Import SpecHash SpecTree SpecFull SpecValid SpecCommit SpecCodec SpecEngine SpecMisc SpecEnd.
From Verif Require Import HashFacts BlockInv MiscProofs TheoremsMpc TheoremsMisc TheoremsExt.
Local Open Scope nat_scope.

Lemma resolves_total {Issue Seal Res} (resolve : Res -> Seal -> result unit Issue * Res) seals :
  forall r, exists xs r', resolves resolve r seals xs r'.
Proof.
  induction seals as [|s seals IH]; intros r; [exists [], r; constructor|].
  destruct (resolve r s) as [x r1] eqn:E. destruct (IH r1) as [xs [r' R]]. exists (x :: xs), r'. econstructor; eassumption.
Qed.
Lemma resolves_in {Issue Seal Res} (resolve : Res -> Seal -> result unit Issue * Res) r seals xs r' s :
  resolves resolve r seals xs r' -> Forall (fun x => x = Ok tt) xs -> In s seals ->
  exists r1 r2, resolve r1 s = (Ok tt, r2).
Proof.
  induction 1 as [|r s1 seals x r1 xs r2 E R IH]; intros F I; [destruct I|]. inversion F as [|y l Y L]; subst.
  destruct I as [<-|I]; [eauto|apply IH; assumption].
Qed.
Lemma claims_concat {Op Seal Pub Issue Fail Warn Info}
  (items : list (client_data Issue Fail Warn Info (claim Op Seal Pub))) x :
  claims items x <-> In x (concat (map cd_seals items)).
Proof.
  rewrite <- flat_map_concat_map, in_flat_map. reflexivity.
Qed.
(** What a client who finds everything valid knows. *)
Lemma valid_claims {H : Hasher} {Op Seal Pub PubId PubErr CliErr Issue Fail Warn Info Res} medium
  (P : seal_protocol Seal bytes32 Pub merkle_proof bytes32 PubId PubErr CliErr) md (I : commit_encode Op)
  (resolve : Res -> claim Op Seal Pub -> result unit Issue * Res)
  (self : client_data Issue Fail Warn Info (claim Op Seal Pub)) items r x :
  trusts_only_closed medium P md I resolve ->
  status_validity (fst (client_side_validate resolve self items r)) = Valid -> claims items x -> closed_by medium P md I x.
Proof.
  intros T V C. destruct (client_side_validate resolve self items r) as [st r'] eqn:E. cbn [fst] in V.
  destruct (c45_report _ _ _ _ _ _ _ _ _ _ _ _ E) as [xss [_ [R _]]].
  apply (c45_valid _ _ _ _ _ _ _ _ _ _ _ _ _ E R) in V as [_ [_ V]].
  destruct (resolves_in _ _ _ _ _ x R V (proj1 (claims_concat items x) C)) as [r1 [r2 Q]]. exact (T _ _ _ _ Q).
Qed.

Lemma c82_no_double_spend : forall (H : Hasher) Op Seal Pub PubId PubErr CliErr
    (medium : Seal -> option Pub) (P : seal_protocol Seal bytes32 Pub merkle_proof bytes32 PubId PubErr CliErr)
    md md' pid (I : commit_encode Op) (fields : Op -> list field)
    Issue Fail Warn Info Res Issue' Fail' Warn' Info' Res'
    (resolve : Res -> claim Op Seal Pub -> result unit Issue * Res)
    (resolve' : Res' -> claim Op Seal Pub -> result unit Issue' * Res')
    (self : client_data Issue Fail Warn Info (claim Op Seal Pub)) items r
    (self' : client_data Issue' Fail' Warn' Info' (claim Op Seal Pub)) items' r'
    s op op' pub pf pub' pf' bs bs' L L'
  (client : forall w x c, sl_convolve P w x = Ok c -> exists d, convolve d w pid x = Ret (Ok c))
  (one_commitment : forall pub p q v w, sl_verify_commitment P pub p = Ok v -> sl_verify_commitment P pub q = Ok w -> p = q)
  (encoder : forall d v, ce_encode I d v (engine_new (ce_tag I)) = run d (fields v) (engine_new (ce_tag I)))
  (regular : Forall2 same_kind (fields op) (fields op'))
  (faithful : fields op = fields op' -> op = op')
  (careful : trusts_only_closed medium P md I resolve) (careful' : trusts_only_closed medium P md' I resolve')
  (accepted : status_validity (fst (client_side_validate resolve self items r)) = Valid)
  (accepted' : status_validity (fst (client_side_validate resolve' self' items' r')) = Valid)
  (spent : claims items (s, op, (pub, pf))) (spent' : claims items' (s, op', (pub', pf')))
  (bytes : Forall2 feeds (fields op) bs) (bytes' : Forall2 feeds (fields op') bs')
  (hashed : fields_hashed (fields op) L) (hashed' : fields_hashed (fields op') L'),
  let id := HASH (s_pre (ce_tag I) (concat bs)) in let id' := HASH (s_pre (ce_tag I) (concat bs')) in
  (op = op' /\ pub = pub' /\ pf = pf') \/
  collision_in ((proof_pre pf pid id ++ proof_pre pf' pid id') ++
                (s_pre (ce_tag I) (concat bs) :: L) ++ (s_pre (ce_tag I) (concat bs') :: L')).
Proof.
  intros H Op Seal Pub PubId PubErr CliErr medium P md md' pid I fields Issue Fail Warn Info Res Issue' Fail' Warn' Info' Res'
    resolve resolve' self items r self' items' r' s op op' pub pf pub' pf' bs bs' L L'
    CL ONE ENC REG FAI CA CA' AC AC' SP SP' B B' HL HL' id id'.
  pose proof (valid_claims _ _ _ _ _ _ _ _ _ CA AC SP) as [V [M [i [I1 C1]]]].
  pose proof (valid_claims _ _ _ _ _ _ _ _ _ CA' AC' SP') as [V' [M' [i' [I1' C1']]]].
  rewrite M in M'. injection M' as <-.
  unfold verify_seal_closing in C1, C1'. apply closing_ok in C1 as [_ [c [X A]]]. apply closing_ok in C1' as [_ [c' [X' A']]].
  pose proof (ONE _ _ _ _ _ A A') as Q. subst c'.
  destruct (CL _ _ _ X) as [d1 Y]. destruct (CL _ _ _ X') as [d2 Y'].
  assert (R : exists e, run md (fields op) (engine_new (ce_tag I)) = Ret e).
  { unfold commit_id, commit in I1. rewrite ENC in I1. destruct (run md (fields op) (engine_new (ce_tag I))) as [e|]; [eauto|discriminate]. }
  assert (R' : exists e, run md' (fields op') (engine_new (ce_tag I)) = Ret e).
  { unfold commit_id, commit in I1'. rewrite ENC in I1'. destruct (run md' (fields op') (engine_new (ce_tag I))) as [e|]; [eauto|discriminate]. }
  destruct R as [e R]. destruct R' as [e' R'].
  rewrite (c34_commit_id H Op md I op (fields op) bs e (ENC md op) R B) in I1.
  rewrite (c34_commit_id H Op md' I op' (fields op') bs' e' (ENC md' op') R' B') in I1'.
  assert (E : i = id) by (unfold id; congruence). assert (E' : i' = id') by (unfold id'; congruence). subst i i'. clear I1 I1'.
  fold id in Y. fold id' in Y'.
  destruct (c01_one_message H d1 d2 pf pf' pid id id' c V V' Y Y') as [EI|K]; [|right; apply coll_app_l; exact K].
  assert (DF : digest_finish (engine_finish e) = digest_finish (engine_finish e')).
  { rewrite (c34_digest H md (ce_tag I) (fields op) e bs R B), (c34_digest H md' (ce_tag I) (fields op') e' bs' R' B'). exact EI. }
  destruct (c35_binding H md md' (ce_tag I) (fields op) (fields op') e e' bs bs' L L' R R' REG B B' HL HL' DF) as [EF|K];
    [|right; apply coll_app_r; exact K].
  destruct (c60_one_proof H d1 d2 pf pf' pid id id' c V V' Y Y') as [EP|K]; [|right; apply coll_app_l; exact K].
  left. split; [exact (FAI EF)|split; [reflexivity|tauto]].
Qed.

Lemma resolves_all {Issue Seal Res} (resolve : Res -> Seal -> result unit Issue * Res) r seals xs r' :
  resolves resolve r seals xs r' -> (forall s r1, In s seals -> exists r2, resolve r1 s = (Ok tt, r2)) ->
  Forall (fun x => x = Ok tt) xs.
Proof.
  induction 1 as [|r s1 seals x r1 xs r2 E R IH]; intros A; [constructor|]. constructor.
  - destruct (A s1 r (or_introl eq_refl)) as [r3 Q]. congruence.
  - apply IH. intros s r3 I. apply A. right. exact I.
Qed.
Lemma c82_honest : forall (H : Hasher) Op Seal Pub PubId PubErr CliErr
    (medium : Seal -> option Pub) (P : seal_protocol Seal bytes32 Pub merkle_proof bytes32 PubId PubErr CliErr)
    md pid (I : commit_encode Op) Issue Fail Warn Info Res
    (resolve : Res -> claim Op Seal Pub -> result unit Issue * Res)
    (self : client_data Issue Fail Warn Info (claim Op Seal Pub)) items r
  (client : forall w x c, convolve md w pid x = Ret (Ok c) -> sl_convolve P w x = Ok c)
  (capable : trusts_closed medium P md I resolve)
  (consistent : status_validity (cd_consistency self) = Valid)
  (consistent' : forall it, In it items -> status_validity (cd_consistency it) = Valid)
  (honest : forall s op pub pf, claims items (s, op, (pub, pf)) ->
     exists id src rng t c, commit_id md I op = Ret id /\ medium s = Some pub /\
       valid_source src /\ try_commit src rng = Ret (Ok t) /\ tree_commit_id md t = Ret c /\ In (pid, id) (ms_messages src) /\
       to_merkle_proof md (block_of_tree t) pid = Ret (Ok pf) /\
       sl_verify_commitment P pub c = Ok tt /\ sl_is_included P s id (pub, pf) = true),
  status_validity (fst (client_side_validate resolve self items r)) = Valid.
Proof.
  intros H Op Seal Pub PubId PubErr CliErr medium P md pid I Issue Fail Warn Info Res resolve self items r CL CA C1 C2 HO.
  destruct (client_side_validate resolve self items r) as [st r'] eqn:E. cbn [fst].
  destruct (c45_report _ _ _ _ _ _ _ _ _ _ _ _ E) as [xss [_ [R _]]].
  apply (c45_valid _ _ _ _ _ _ _ _ _ _ _ _ _ E R). split; [exact C1|split; [apply Forall_forall; exact C2|]].
  apply (resolves_all _ _ _ _ _ R). intros [[s op] [pub pf]] r1 J. apply CA. apply claims_concat in J.
  destruct (HO _ _ _ _ J) as [id [src [rng [t [c [Q1 [Q2 [V [T [TI [M [X [A N]]]]]]]]]]]]]. split; [|split; [exact Q2|]].
  - destruct (c02_every_message_has_proof H md src rng t pid id V T M) as [pf' [c' [X' [_ [_ W]]]]].
    assert (pf = pf') by congruence. subst pf'. exact W.
  - exists id. split; [exact Q1|]. unfold verify_seal_closing.
    apply (c63_complete H Seal Pub merkle_proof PubId PubErr CliErr P md (fun x => x) src rng t c pid id pf pub pf [s] V T TI CL A M X eq_refl).
    intros s' [<-|[]]. exact N.
Qed.
