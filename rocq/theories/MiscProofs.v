(** Proofs about length-prefixed hashing, commitment schemes, seals, statuses and layouts. *)
From Verif Require Import Base BaseFacts OrdMap Strict StrictProofs Digest Merkle MpcAtoms MpcTree MpcBlock Engine.
From Verif Require Import Schemes Seals Api Vesper SpecHash SpecMerkle HashFacts BlockInv PathProofs MpcTreeProofs.
From Verif Require Import SpecEngine EngineProofs SpecMisc SpecTree SpecCommit.
From Verif Require Import SpecCodec.
Local Open Scope nat_scope.

(** ** input_with_len *)

Lemma le_mod k v : le k (v mod 256 ^ N.of_nat k) = le k v.
Proof.
  revert v. induction k as [|k IH]; intros v; [reflexivity|]. cbn [le].
  rewrite Nat2N.inj_succ, N.pow_succ_r'.
  assert (P : (256 ^ N.of_nat k <> 0)%N) by (apply N.pow_nonzero; lia).
  f_equal.
  - unfold byte_of_N. rewrite N.mod_mul_r by (lia || exact P).
    rewrite (N.mul_comm 256), N.mod_add by lia. rewrite N.mod_mod by lia. reflexivity.
  - rewrite N.mod_mul_r by (lia || exact P). rewrite (N.mul_comm 256), N.div_add by lia.
    rewrite N.div_small by (apply N.mod_lt; lia). rewrite N.add_0_l. apply IH.
Qed.

Lemma input_with_len_small max k e d :
  prefix_size max k -> (max < 2 ^ 32)%N -> (N.of_nat (length d) <= max)%N ->
  input_with_len max e d = Ret (e ++ le k (N.of_nat (length d)) ++ d).
Proof.
  intros P M L. unfold input_with_len.
  destruct P as [max P|max P|max P|max P|max P].
  - replace (max <=? 0xFF)%N with true by (symmetry; apply N.leb_le; lia). cbn [bind].
    change (2 ^ 8)%N with (256 ^ N.of_nat 1)%N. rewrite le_mod. unfold input_raw. rewrite app_assoc. reflexivity.
  - replace (max <=? 0xFF)%N with false by (symmetry; apply N.leb_gt; lia).
    replace (max <=? 0xFFFF)%N with true by (symmetry; apply N.leb_le; lia). cbn [bind].
    change (2 ^ 16)%N with (256 ^ N.of_nat 2)%N. rewrite le_mod. unfold input_raw. rewrite app_assoc. reflexivity.
  - replace (max <=? 0xFF)%N with false by (symmetry; apply N.leb_gt; lia).
    replace (max <=? 0xFFFF)%N with false by (symmetry; apply N.leb_gt; lia).
    replace (max <=? 0xFFFFFF)%N with true by (symmetry; apply N.leb_le; lia).
    rewrite N.mod_small by lia. unfold u24_with.
    replace (N.of_nat (length d) <? 2 ^ 24)%N with true by (symmetry; apply N.ltb_lt; lia).
    cbn [bind]. unfold input_raw. rewrite app_assoc. reflexivity.
  - replace (max <=? 0xFF)%N with false by (symmetry; apply N.leb_gt; lia).
    replace (max <=? 0xFFFF)%N with false by (symmetry; apply N.leb_gt; lia).
    replace (max <=? 0xFFFFFF)%N with false by (symmetry; apply N.leb_gt; lia).
    replace (max <=? 0xFFFFFFFF)%N with true by (symmetry; apply N.leb_le; lia). cbn [bind].
    change (2 ^ 32)%N with (256 ^ N.of_nat 4)%N. rewrite le_mod. unfold input_raw. rewrite app_assoc. reflexivity.
  - lia.
Qed.

Lemma inputs_ok max k datas : forall e,
  prefix_size max k -> (max < 2 ^ 32)%N -> Forall (fun d => (N.of_nat (length d) <= max)%N) datas ->
  inputs_with_len max e datas = Ret (e ++ framed k datas).
Proof.
  induction datas as [|d r IH]; intros e P M F; cbn [inputs_with_len].
  - unfold framed; cbn. rewrite app_nil_r. reflexivity.
  - inversion F as [|? ? F1 F2]; subst. rewrite (input_with_len_small max k e d P M F1). cbn [bind].
    rewrite IH by assumption. unfold framed. cbn [map concat]. rewrite <- !app_assoc. reflexivity.
Qed.

Lemma framed_inj max k : prefix_size max k -> (max < 2 ^ 32)%N -> 0 < k -> forall x y,
  Forall (fun d => (N.of_nat (length d) <= max)%N) x -> Forall (fun d => (N.of_nat (length d) <= max)%N) y ->
  framed k x = framed k y -> x = y.
Proof.
  intros P M K. pose proof (prefix_fits _ _ P ltac:(lia)) as B.
  induction x as [|a x IH]; intros [|b y] Fx Fy E.
  - reflexivity.
  - exfalso. apply (f_equal (@length byte)) in E. unfold framed in E. cbn in E.
    rewrite !app_length, le_length in E. lia.
  - exfalso. apply (f_equal (@length byte)) in E. unfold framed in E. cbn in E.
    rewrite !app_length, le_length in E. lia.
  - unfold framed in E. cbn [map concat] in E. rewrite <- !app_assoc in E.
    inversion Fx as [|? ? F1 F2]; inversion Fy as [|? ? F3 F4]; subst.
    apply c_le_fixed in E as [EL E]; [|lia|lia]. apply Nat2N.inj in EL.
    apply app_inv_length in E as [-> E]; [|exact EL]. f_equal. apply IH; assumption.
Qed.

(** C38 *)
Theorem inputs_injective max e x y ex ey :
  (max < 2 ^ 32)%N ->
  Forall (fun d => (N.of_nat (length d) <= max)%N) x -> Forall (fun d => (N.of_nat (length d) <= max)%N) y ->
  inputs_with_len max e x = Ret ex -> inputs_with_len max e y = Ret ey -> ex = ey -> x = y.
Proof.
  intros M Fx Fy Ex Ey E. pose proof (prefix_len_size max) as P.
  rewrite (inputs_ok max _ x e P M Fx) in Ex. rewrite (inputs_ok max _ y e P M Fy) in Ey.
  injection Ex as <-. injection Ey as <-. apply app_inv_head in E.
  eapply framed_inj; [exact P|exact M| |exact Fx|exact Fy|exact E]. destruct P; lia.
Qed.
Theorem input_too_big_max max e d : (2 ^ 32 <= max)%N -> input_with_len max e d = Panic PUnreachable.
Proof.
  intros M. unfold input_with_len.
  replace (max <=? 0xFF)%N with false by (symmetry; apply N.leb_gt; lia).
  replace (max <=? 0xFFFF)%N with false by (symmetry; apply N.leb_gt; lia).
  replace (max <=? 0xFFFFFF)%N with false by (symmetry; apply N.leb_gt; lia).
  replace (max <=? 0xFFFFFFFF)%N with false by (symmetry; apply N.leb_gt; lia). reflexivity.
Qed.
Theorem input_24_too_long max e d :
  (2 ^ 16 <= max < 2 ^ 24)%N -> (2 ^ 24 <= N.of_nat (length d) < 2 ^ 32)%N ->
  input_with_len max e d = Panic PAssert.
Proof.
  intros M L. unfold input_with_len.
  replace (max <=? 0xFF)%N with false by (symmetry; apply N.leb_gt; lia).
  replace (max <=? 0xFFFF)%N with false by (symmetry; apply N.leb_gt; lia).
  replace (max <=? 0xFFFFFF)%N with true by (symmetry; apply N.leb_le; lia).
  rewrite N.mod_small by lia. unfold u24_with.
  replace (N.of_nat (length d) <? 2 ^ 24)%N with false by (symmetry; apply N.ltb_ge; lia). reflexivity.
Qed.
Lemma input_truncated max k e d :
  prefix_size max k -> k = 1 \/ k = 2 \/ k = 4 ->
  input_with_len max e d = Ret (e ++ le k (N.of_nat (length d)) ++ d).
Proof.
  intros P K. unfold input_with_len.
  destruct P as [max P|max P|max P|max P|max P]; try lia.
  - replace (max <=? 0xFF)%N with true by (symmetry; apply N.leb_le; lia). cbn [bind].
    change (2 ^ 8)%N with (256 ^ N.of_nat 1)%N. rewrite le_mod. unfold input_raw. rewrite app_assoc. reflexivity.
  - replace (max <=? 0xFF)%N with false by (symmetry; apply N.leb_gt; lia).
    replace (max <=? 0xFFFF)%N with true by (symmetry; apply N.leb_le; lia). cbn [bind].
    change (2 ^ 16)%N with (256 ^ N.of_nat 2)%N. rewrite le_mod. unfold input_raw. rewrite app_assoc. reflexivity.
  - replace (max <=? 0xFF)%N with false by (symmetry; apply N.leb_gt; lia).
    replace (max <=? 0xFFFF)%N with false by (symmetry; apply N.leb_gt; lia).
    replace (max <=? 0xFFFFFF)%N with false by (symmetry; apply N.leb_gt; lia).
    replace (max <=? 0xFFFFFFFF)%N with true by (symmetry; apply N.leb_le; lia). cbn [bind].
    change (2 ^ 32)%N with (256 ^ N.of_nat 4)%N. rewrite le_mod. unfold input_raw. rewrite app_assoc. reflexivity.
Qed.

Lemma le_zero k : le k 0 = repeat x00 k.
Proof. induction k as [|k IH]; [reflexivity|]. cbn [le repeat]. f_equal. exact IH. Qed.

Lemma inputs_empty max k n : forall e,
  prefix_size max k -> k = 1 \/ k = 2 \/ k = 4 ->
  inputs_with_len max e (repeat [] n) = Ret (e ++ repeat x00 (n * k)).
Proof.
  induction n as [|n IH]; intros e P K; cbn [repeat inputs_with_len].
  - cbn. rewrite app_nil_r. reflexivity.
  - rewrite (input_truncated max k e [] P K). cbn [bind length N.of_nat]. rewrite le_zero, app_nil_r.
    rewrite IH by assumption. cbn [Nat.mul]. rewrite repeat_app, <- app_assoc. reflexivity.
Qed.

(** For every [max] with an 8-, 16- or 32-bit prefix, two different sequences of calls feed
    the same bytes. *)
Theorem input_collision max k e :
  prefix_size max k -> k = 1 \/ k = 2 \/ k = 4 ->
  exists d n e', d <> [] /\ inputs_with_len max e [d] = Ret e' /\ inputs_with_len max e (repeat [] n) = Ret e'.
Proof.
  intros P K.
  assert (D : exists m, (256 ^ N.of_nat k = N.of_nat m * N.of_nat k)%N).
  { destruct K as [-> | [-> | ->]].
    - exists (N.to_nat 256). reflexivity.
    - exists (N.to_nat 32768). reflexivity.
    - exists (N.to_nat (2 ^ 30)). rewrite N2Nat.id. reflexivity. }
  destruct D as [m D]. assert (M0 : m <> 0).
  { intros ->. cbn in D. assert (256 ^ N.of_nat k <> 0)%N by (apply N.pow_nonzero; lia). lia. }
  exists (repeat x00 (m * k)), (S m), (e ++ repeat x00 (S m * k)).
  split; [|split].
  - destruct (m * k) eqn:E; [|discriminate]. lia.
  - cbn [inputs_with_len]. rewrite (input_truncated max k e _ P K). cbn [bind].
    rewrite repeat_length, <- le_mod, Nat2N.inj_mul, <- D, N.mod_same by (apply N.pow_nonzero; lia).
    rewrite le_zero, <- repeat_app. reflexivity.
  - apply inputs_empty; assumption.
Qed.

(** ** commit.rs *)

Theorem cv_verify_iff {Msg Cmt} (I : commit_verify Msg Cmt) self msg :
  (forall x y, cv_eq I x y = true <-> x = y) ->
  (cv_verify I self msg = Ok tt <-> cv_commit I msg = self) /\
  (cv_verify I self msg = Err InvalidCommitment <-> cv_commit I msg <> self) /\
  cv_verify I self msg <> Err InvalidMessage.
Proof.
  intros EQ. unfold cv_verify. destruct (cv_eq I (cv_commit I msg) self) eqn:E.
  - apply EQ in E. repeat split; intros; try congruence.
  - assert (cv_commit I msg <> self) by (intros X; apply EQ in X; congruence).
    repeat split; intros; try congruence.
Qed.
Theorem tv_verify_iff {Msg Cmt E} (I : try_commit_verify Msg Cmt E) self msg :
  (forall x y, tv_eq I x y = true <-> x = y) ->
  (tv_verify I self msg = Ret (Ok tt) <-> tv_try_commit I msg = Ret (Ok self)) /\
  (tv_verify I self msg = Ret (Err InvalidCommitment) <->
     exists c, tv_try_commit I msg = Ret (Ok c) /\ c <> self) /\
  (tv_verify I self msg = Ret (Err InvalidMessage) <-> exists e, tv_try_commit I msg = Ret (Err e)) /\
  (forall p, tv_verify I self msg = Panic p <-> tv_try_commit I msg = Panic p).
Proof.
  intros EQ. unfold tv_verify. destruct (tv_try_commit I msg) as [[c|e]|p]; cbn [bind].
  - destruct (tv_eq I c self) eqn:EC; cbn [negb].
    + apply EQ in EC. subst c. repeat split; intros X; try congruence.
      * destruct X as [c [X1 X2]]. congruence.
      * destruct X as [e X]. congruence.
    + assert (c <> self) by (intros X; apply EQ in X; congruence).
      repeat split; intros X; try congruence.
      * eauto.
      * destruct X as [e X]. congruence.
  - repeat split; intros X; try congruence.
    + destruct X as [c [X1 X2]]. congruence.
    + eauto.
  - repeat split; intros X; try congruence.
    + destruct X as [c [X1 X2]]. congruence.
    + destruct X as [e X]. congruence.
Qed.

Lemma list_eqb_eq {A} (e : A -> A -> bool) : (forall x y, e x y = true <-> x = y) ->
  forall x y, list_eqb e x y = true <-> x = y.
Proof.
  intros EQ. induction x as [|a x IH]; intros [|b y]; cbn; split; intros E; try congruence; try reflexivity.
  - apply andb_true_iff in E as [E1 E2]. apply EQ in E1. apply IH in E2. congruence.
  - injection E as -> ->. apply andb_true_iff. split; [apply EQ|apply IH]; reflexivity.
Qed.
Lemma pair_eqb_eq {A B} (ea : A -> A -> bool) (eb : B -> B -> bool) :
  (forall x y, ea x y = true <-> x = y) -> (forall x y, eb x y = true <-> x = y) ->
  forall x y, pair_eqb ea eb x y = true <-> x = y.
Proof.
  intros EA EB [a b] [a' b']. unfold pair_eqb; cbn. rewrite andb_true_iff, EA, EB.
  split; [intros [-> ->]; reflexivity|intros X; injection X; auto].
Qed.
Lemma merkle_tree_eqb_eq a b : merkle_tree_eqb a b = true <-> a = b.
Proof.
  destruct a as [m d e c ms mp], b as [m' d' e' c' ms' mp']. unfold merkle_tree_eqb.
  cbn [mt_method mt_depth mt_entropy mt_cofactor mt_messages mt_map].
  rewrite !andb_true_iff, Nat.eqb_eq, !N.eqb_eq.
  rewrite (list_eqb_eq (pair_eqb b32_eqb b32_eqb)) by (apply pair_eqb_eq; apply b32_eqb_eq).
  rewrite (list_eqb_eq (pair_eqb N.eqb (pair_eqb b32_eqb b32_eqb)))
    by (apply pair_eqb_eq; [apply N.eqb_eq|apply pair_eqb_eq; apply b32_eqb_eq]).
  destruct m, m'. split.
  - intros [[[[[_ ->] ->] ->] ->] ->]. reflexivity.
  - intros X. injection X as -> -> -> -> ->. auto 10.
Qed.

(** ** embed.rs *)
Section EmbedProofs.
Context {Msg Cont Proof E : Type} (I : embed_scheme Msg Cont Proof E).
Theorem em_verify_iff self msg proof r : em_verify I self msg proof = r <-> em_verdict I self msg proof r.
Proof.
  unfold em_verify. split.
  - intros <-. destruct (em_restore I proof self) as [c|e] eqn:R; [|apply ev_restore; exact R].
    destruct (em_commit I c msg) as [[c' p']|e] eqn:C; [|eapply ev_message; eassumption].
    destruct (em_proof_eq I p' proof) eqn:PE; cbn [negb]; [|eapply ev_proof; eassumption].
    destruct (em_cont_eq I self c') eqn:CE; cbn [negb]; [eapply ev_ok|eapply ev_container]; eassumption.
  - intros V. destruct V as [e R|c e R C|c c' p' R C PE|c c' p' R C PE CE|c c' p' R C PE CE];
      rewrite R; try reflexivity; rewrite C; try reflexivity; rewrite PE; cbn [negb]; try reflexivity;
      rewrite CE; reflexivity.
Qed.
Theorem em_complete c msg c' p : em_lawful I -> em_commit I c msg = Ok (c', p) -> em_verify I c' msg p = Ok tt.
Proof.
  intros L C. apply em_verify_iff. eapply ev_ok.
  - eapply (eml_restore _ L). exact C.
  - exact C.
  - apply (eml_proof _ L).
  - apply (eml_cont _ L).
Qed.
Theorem em_sound self msg msg' proof :
  em_verify I self msg proof = Ok tt -> em_verify I self msg' proof = Ok tt ->
  exists c c1 p1 c2 p2, em_restore I proof self = Ok c /\
    em_commit I c msg = Ok (c1, p1) /\ em_commit I c msg' = Ok (c2, p2) /\
    em_cont_eq I self c1 = true /\ em_cont_eq I self c2 = true /\
    em_proof_eq I p1 proof = true /\ em_proof_eq I p2 proof = true.
Proof.
  intros V V'. apply em_verify_iff in V, V'. inversion V as [| | | |c c1 p1 R C PE CE]; subst.
  inversion V' as [| | | |c0 c2 p2 R' C' PE' CE']; subst. rewrite R in R'. injection R' as <-.
  exists c, c1, p1, c2, p2. auto 10.
Qed.
Theorem em_no_mismatch self msg proof :
  em_restore I proof self <> Err EvProofMismatch -> em_verify I self msg proof <> Err EvProofMismatch.
Proof. intros N V. apply em_verify_iff in V. inversion V; subst. contradiction. Qed.
End EmbedProofs.

(** ** convolve.rs *)
Section ConvolveProofs.
Context {Msg Src Suppl Cmt Proof E : Type} (I : convolve_scheme Msg Src Suppl Cmt Proof E).
Theorem cc_verify_iff proof msg cmt r : cc_verify I proof msg cmt = r <-> cc_verdict I proof msg cmt r.
Proof.
  unfold cc_verify. split.
  - intros <-. destruct (cc_commit I _ _ msg) as [[c' p']|e] eqn:C; [|eapply cv_message; exact C].
    destruct (cc_proof_eq I proof p') eqn:PE; cbn [negb]; [|eapply cv_proof; eassumption].
    destruct (cc_cmt_eq I cmt c') eqn:CE; cbn [negb]; [eapply cv_ok|eapply cv_cmt]; eassumption.
  - intros V. destruct V as [e C|c' p' C PE|c' p' C PE CE|c' p' C PE CE];
      rewrite C; try reflexivity; rewrite PE; cbn [negb]; try reflexivity; rewrite CE; reflexivity.
Qed.
Theorem cc_complete src s msg c p : cc_lawful I -> cc_commit I src s msg = Ok (c, p) -> cc_verify I p msg c = Ok tt.
Proof.
  intros L C. apply cc_verify_iff. destruct (ccl_restore _ L _ _ _ _ _ C) as [c' [p' [C' [PE CE]]]].
  eapply cv_ok; eassumption.
Qed.
End ConvolveProofs.

(** ** Seals *)
Section SealProofs.
Context {Seal Msg Pub Cli Proof PubId PubErr CliErr : Type}.
Context (P : seal_protocol Seal Msg Pub Cli Proof PubId PubErr CliErr).

Lemma check_included_none w seals msg : check_included P w seals msg = None <->
  (forall x, In x seals -> sl_is_included P x msg w = true).
Proof.
  induction seals as [|s r IH]; cbn.
  - split; [intros _ x []|reflexivity].
  - destruct (sl_is_included P s msg w) eqn:E.
    + rewrite IH. split; [intros F x [<-|Hx]; auto|auto].
    + split; [discriminate|]. intros F. specialize (F s (or_introl eq_refl)). congruence.
Qed.
Lemma check_included_some w seals msg e : check_included P w seals msg = Some e <->
  exists before s after, seals = before ++ s :: after /\
    (forall x, In x before -> sl_is_included P x msg w = true) /\ sl_is_included P s msg w = false /\
    e = SeNotIncluded s (sl_pub_id P (fst w)).
Proof.
  induction seals as [|s r IH]; cbn.
  - split; [discriminate|]. intros [[|b before] [x [after [E _]]]]; discriminate E.
  - destruct (sl_is_included P s msg w) eqn:E.
    + rewrite IH. split.
      * intros [b [x [a [-> [F [N ->]]]]]]. exists (s :: b), x, a. split; [reflexivity|split; [|auto]].
        intros y [<-|Hy]; auto.
      * intros [[|b0 b] [x [a [EE [F [N ->]]]]]].
        -- cbn in EE. injection EE as -> ->. congruence.
        -- cbn in EE. injection EE as -> ->. exists b, x, a. split; [reflexivity|split; [|auto]].
           intros y Hy. apply F. right; exact Hy.
    + split.
      * intros X. injection X as <-. exists [], s, r. split; [reflexivity|split; [intros x []|auto]].
      * intros [[|b0 b] [x [a [EE [F [N ->]]]]]].
        -- cbn in EE. injection EE as -> ->. reflexivity.
        -- cbn in EE. injection EE as -> ->. specialize (F b0 (or_introl eq_refl)). congruence.
Qed.

(** C47 *)
Theorem verify_seals_iff pub cli seals msg r :
  verify_seals_closing P (witness_new pub cli) seals msg = r <-> closing_verdict P pub cli seals msg r.
Proof.
  unfold verify_seals_closing, witness_new. cbn [fst snd].
  destruct (check_included P (pub, cli) seals msg) as [e|] eqn:C.
  - pose proof C as C0. apply check_included_some in C0 as [b [s [a [-> [F [N ->]]]]]]. cbn [fst] in *. split.
    + intros <-. eapply sv_not_included; [reflexivity|exact F|exact N].
    + intros V. destruct V as [b' s' a' EE F' N'|e F'|p e F'|p u F'].
      * assert (X : check_included P (pub, cli) (b ++ s :: a) msg = Some (SeNotIncluded s' (sl_pub_id P pub))).
        { apply check_included_some. exists b', s', a'. auto. }
        rewrite X in C. injection C as ->. reflexivity.
      * exfalso. rewrite (F' s) in N; [discriminate|]. apply in_app_iff. right; left; reflexivity.
      * exfalso. rewrite (F' s) in N; [discriminate|]. apply in_app_iff. right; left; reflexivity.
      * exfalso. rewrite (F' s) in N; [discriminate|]. apply in_app_iff. right; left; reflexivity.
  - pose proof (proj1 (check_included_none _ _ _) C) as F. split.
    + intros <-. destruct (sl_convolve P cli msg) as [p|e] eqn:S; [|apply sv_client; assumption].
      destruct (sl_verify_commitment P pub p) as [u|e] eqn:V; [eapply sv_ok|eapply sv_published]; eassumption.
    + intros V. destruct V as [b' s' a' EE F' N'|e F' S|p e F' S V|p u F' S V].
      * exfalso. rewrite F in N'; [discriminate|]. rewrite EE. apply in_app_iff. right; left; reflexivity.
      * rewrite S. reflexivity.
      * rewrite S, V. reflexivity.
      * rewrite S, V. reflexivity.
Qed.

Lemma closing_ok pub cli seals msg u : verify_seals_closing P (witness_new pub cli) seals msg = Ok u ->
  (forall x, In x seals -> sl_is_included P x msg (pub, cli) = true) /\
  exists proof, sl_convolve P cli msg = Ok proof /\ sl_verify_commitment P pub proof = Ok u.
Proof. intros V. apply verify_seals_iff in V. inversion V; subst. eauto. Qed.

(** C48, general part *)
Theorem seal_one_message pub cli seals seals' m m' u u' :
  (forall p q v w, sl_verify_commitment P pub p = Ok v -> sl_verify_commitment P pub q = Ok w -> p = q) ->
  (forall x y p, sl_convolve P cli x = Ok p -> sl_convolve P cli y = Ok p -> x = y) ->
  verify_seals_closing P (witness_new pub cli) seals m = Ok u ->
  verify_seals_closing P (witness_new pub cli) seals' m' = Ok u' -> m = m'.
Proof.
  intros ONE INJ V V'. apply closing_ok in V as [_ [p [C VC]]]. apply closing_ok in V' as [_ [p' [C' VC']]].
  pose proof (ONE _ _ _ _ VC VC') as E. subst p'. eapply INJ; eassumption.
Qed.
End SealProofs.

(** ** Statuses *)
Section StatusProofs.
Context {Issue Fail Warn Info : Type}.
Notation status := (status Issue Fail Warn Info).

Lemma validity_iff (s : status) :
  (status_validity s = Invalid <-> failures s <> []) /\
  (status_validity s = SealIssues <-> failures s = [] /\ seal_issues s <> []) /\
  (status_validity s = Valid <-> failures s = [] /\ seal_issues s = []).
Proof.
  unfold status_validity. destruct (failures s), (seal_issues s); cbn; repeat split; intros;
    try congruence; try tauto; try (split; congruence); try (destruct H; congruence).
Qed.

Lemma validity_merge (a b : status) :
  status_validity (add_assign a b) = worse (status_validity a) (status_validity b).
Proof.
  unfold status_validity, add_assign, worse. cbn [failures seal_issues].
  destruct (failures a), (failures b), (seal_issues a), (seal_issues b); reflexivity.
Qed.

Lemma apply_events_spec (evs : list event) : forall s : status,
  let s' := fold_left apply_event evs s in
  seal_issues s' = seal_issues s ++ concat (map issues_of evs) /\
  failures s' = failures s ++ concat (map fails_of evs) /\
  warnings s' = warnings s ++ concat (map warns_of evs) /\
  info s' = info s ++ concat (map infos_of evs).
Proof.
  induction evs as [|e evs IH]; intros s; cbn zeta.
  - cbn. rewrite !app_nil_r. auto.
  - cbn [fold_left map concat]. destruct (IH (apply_event s e)) as [I1 [I2 [I3 I4]]].
    rewrite I1, I2, I3, I4. destruct e; cbn; rewrite <- ?app_assoc; auto.
Qed.

Lemma events_worse (evs : list event) (s : status) :
  severity (status_validity s) <= severity (status_validity (fold_left apply_event evs s)).
Proof.
  destruct (apply_events_spec evs s) as [I1 [I2 _]]. unfold status_validity. rewrite I1, I2.
  destruct (failures s), (seal_issues s); cbn; try lia;
    destruct (concat (map fails_of evs)), (concat (map issues_of evs)); cbn; lia.
Qed.

Lemma status_eq (a b : status) : seal_issues a = seal_issues b -> failures a = failures b ->
  warnings a = warnings b -> info a = info b -> a = b.
Proof. destruct a, b; cbn; intros; subst; reflexivity. Qed.
Lemma add_assign_assoc (a b c : status) : add_assign (add_assign a b) c = add_assign a (add_assign b c).
Proof. apply status_eq; cbn; rewrite app_assoc; reflexivity. Qed.
Lemma add_assign_new_l (a : status) : add_assign status_new a = a.
Proof. destruct a; reflexivity. Qed.
Lemma add_assign_new_r (a : status) : add_assign a status_new = a.
Proof. apply status_eq; cbn; apply app_nil_r. Qed.

Lemma joined_eq (a b : status) : joined a b = add_assign a b.
Proof. reflexivity. Qed.

Section Validate.
Context {Seal Res : Type} (resolve : Res -> Seal -> result unit Issue * Res).
Notation client_data := (client_data Issue Fail Warn Info Seal).

Lemma validate_seals_spec seals : forall (st : status) r (st' : status) r',
  validate_seals resolve st r seals = (st', r') ->
  exists xs, resolves resolve r seals xs r' /\
    st' = add_assign st (Status (problems xs) [] [] []).
Proof.
  induction seals as [|s seals IH]; intros st r st' r' E; cbn in E.
  - injection E as <- <-. exists []. split; [constructor|]. apply status_eq; cbn; rewrite app_nil_r; reflexivity.
  - destruct (resolve r s) as [x r1] eqn:R. apply IH in E as [xs [RS ->]].
    exists (x :: xs). split; [econstructor; eassumption|].
    destruct x as [u|i]; apply status_eq; cbn; rewrite <- ?app_assoc; reflexivity.
Qed.

(** The status due for the items: their results and reports in turn. *)
Lemma resolves_app r s1 s2 xs r' : resolves resolve r (s1 ++ s2) xs r' <->
  exists xs1 xs2 r1, xs = xs1 ++ xs2 /\ resolves resolve r s1 xs1 r1 /\ resolves resolve r1 s2 xs2 r'.
Proof.
  revert r xs. induction s1 as [|s s1 IH]; intros r xs; cbn.
  - split.
    + intros R. exists [], xs, r. repeat split; auto. constructor.
    + intros [xs1 [xs2 [r1 [-> [R1 R2]]]]]. inversion R1; subst. exact R2.
  - split.
    + intros R. inversion R as [|? ? ? x r1 xs0 ? E R']; subst. apply IH in R' as [xs1 [xs2 [r2 [-> [R1 R2]]]]].
      exists (x :: xs1), xs2, r2. repeat split; auto. econstructor; eassumption.
    + intros [xs1 [xs2 [r1 [-> [R1 R2]]]]]. inversion R1 as [|? ? ? x r2 xs0 ? E R']; subst.
      cbn. econstructor; [eassumption|]. apply IH. eauto 8.
Qed.

Lemma validate_items_spec (items : list client_data) : forall (st : status) r st' r',
  validate_items resolve st r items = (st', r') ->
  exists xss, length xss = length items /\
    Forall2 (fun it xs => length xs = length (cd_seals it)) items xss /\
    resolves resolve r (concat (map cd_seals items)) (concat xss) r' /\
    st' = add_assign st (reports items xss).
Proof.
  induction items as [|it items IH]; intros st r st' r' E; cbn in E.
  - injection E as <- <-. exists []. repeat split; try constructor. rewrite add_assign_new_r. reflexivity.
  - destruct (validate_seals resolve st r (cd_seals it)) as [st1 r1] eqn:V.
    apply validate_seals_spec in V as [xs [RS ->]]. apply IH in E as [xss [HL [F2 [RS2 ->]]]].
    exists (xs :: xss). cbn. split; [congruence|split; [|split]].
    + constructor; [|exact F2]. clear -RS. induction RS; cbn; congruence.
    + apply resolves_app. eauto 8.
    + rewrite !add_assign_assoc. reflexivity.
Qed.

Lemma resolves_fun r seals xs r1 : resolves resolve r seals xs r1 -> forall ys r2,
  resolves resolve r seals ys r2 -> xs = ys /\ r1 = r2.
Proof.
  induction 1 as [r|r s seals x r1 xs r2 E R IH]; intros ys r2' R'; inversion R' as [|? ? ? y r1' ys' ? E' R2]; subst.
  - auto.
  - rewrite E in E'. injection E' as <- <-. apply IH in R2 as [-> ->]. auto.
Qed.

(** C45 *)
Theorem client_side_validate_spec (self : client_data) (items : list client_data) r (st : status) r' :
  client_side_validate resolve self items r = (st, r') ->
  exists xss, Forall2 (fun it xs => length xs = length (cd_seals it)) items xss /\
    resolves resolve r (concat (map cd_seals items)) (concat xss) r' /\
    st = add_assign (cd_consistency self) (reports items xss).
Proof.
  unfold client_side_validate. intros E. apply validate_items_spec in E as [xss [HL [F2 [RS ->]]]].
  exists xss. rewrite add_assign_new_l. auto.
Qed.

Lemma problems_nil (xs : list (result unit Issue)) : problems xs = [] <-> Forall (fun x => x = Ok tt) xs.
Proof.
  induction xs as [|[[]|i] xs IH]; unfold problems in *; cbn.
  - split; constructor.
  - rewrite IH. split; [intros F; constructor; auto|intros F; inversion F; auto].
  - split; [discriminate|]. intros F; inversion F; discriminate.
Qed.

Lemma worse_valid a b : worse a b = Valid <-> a = Valid /\ b = Valid.
Proof. destruct a, b; cbn; split; intros X; try discriminate X; auto; destruct X; discriminate. Qed.

Lemma reports_valid (items : list client_data) : forall xss, Forall2 (fun it xs => length xs = length (cd_seals it)) items xss ->
  (status_validity (reports items xss) = Valid <->
   Forall (fun it => status_validity (cd_consistency it) = Valid) items /\
   Forall (fun x => x = Ok tt) (concat xss)).
Proof.
  intros xss F2. induction F2 as [|it xs items xss HL F2 IH]; cbn [reports concat].
  - split; [intros _; split; constructor|reflexivity].
  - rewrite !validity_merge, !worse_valid, IH, Forall_app.
    assert (X : status_validity (Status (problems xs) [] [] [] : status) = Valid <-> Forall (fun x => x = Ok tt) xs).
    { rewrite <- problems_nil. rewrite (proj2 (proj2 (validity_iff _))). cbn. tauto. }
    rewrite X. split.
    + intros [A [B [C D]]]. auto.
    + intros [A [B C]]. inversion A; subst. auto.
Qed.

Theorem client_side_validate_valid (self : client_data) (items : list client_data) r (st : status) r' xs :
  client_side_validate resolve self items r = (st, r') ->
  resolves resolve r (concat (map cd_seals items)) xs r' ->
  (status_validity st = Valid <->
   status_validity (cd_consistency self) = Valid /\
   Forall (fun it => status_validity (cd_consistency it) = Valid) items /\ Forall (fun x => x = Ok tt) xs).
Proof.
  intros E RS. apply client_side_validate_spec in E as [xss [F2 [RS' ->]]].
  destruct (resolves_fun _ _ _ _ RS _ _ RS') as [-> _].
  rewrite validity_merge, worse_valid, (reports_valid _ _ F2). reflexivity.
Qed.
End Validate.
End StatusProofs.

(** ** Layouts *)

Definition child (s : commit_step) : vexpr :=
  VExpr (step_subject s) (step_predicate s) (step_attributes s) (step_content s).

Lemma child_print_iff s t : vprint (child s) = vprint (child t) <-> forget_step s = forget_step t.
Proof.
  destruct s as [f|c z f|f|f|f], t as [g|c' z' g|g|g|g]; try destruct c as [| |k]; try destruct c' as [| |k'];
    cbn; unfold step_subject, anonymous; cbn; split; intros E; try discriminate E; injection E; intros; subst; try congruence.
Qed.

Lemma map_eq_iff {A B C} (f : A -> B) (g : A -> C) : (forall x y, f x = f y <-> g x = g y) ->
  forall l m, map f l = map f m <-> map g l = map g m.
Proof.
  intros E. induction l as [|a l IH]; intros [|b m]; cbn; split; intros X; try discriminate X; try reflexivity;
    injection X as X1 X2; f_equal; try (apply E; exact X1); apply IH; exact X2.
Qed.

Theorem vesper_iff l m x y : to_vesper l = Ret x -> to_vesper m = Ret y ->
  (vprint x = vprint y <-> forget_libs l = forget_libs m).
Proof.
  unfold to_vesper. destruct (Nat.leb _ 255); [|discriminate]. destruct (Nat.leb _ 255); [|discriminate].
  intros X Y. injection X as <-. injection Y as <-. unfold forget_libs, anonymous. cbn.
  pose proof (map_eq_iff (fun s => vprint (child s)) forget_step child_print_iff (cl_fields l) (cl_fields m)) as M.
  rewrite !map_map. split; intros E; injection E; intros.
  - f_equal; [congruence|assumption|]. apply M. assumption.
  - f_equal; [assumption|congruence|]. apply M. assumption.
Qed.

Theorem vesper_ret l : length (cl_fields l) <= 255 ->
  to_vesper l = Ret (VExpr (fq_name (cl_idty l)) PCommitment [AHasher; ATagged (cl_tag l)] (map child (cl_fields l))).
Proof.
  intros L. unfold to_vesper. rewrite map_length. apply Nat.leb_le in L. rewrite L. reflexivity.
Qed.
