(** C110: ids of values made of other values, to any depth. *)
From Verif Require Import Base BaseFacts Digest Merkle Engine Strict.
From Verif Require Import SpecHash SpecTree SpecMerkle SpecFull SpecCodec SpecEngine SpecMisc SpecGame SpecTarget SpecIdGame SpecLate SpecNest.
From Verif Require Import MerkleProofs HashFacts TheoremsMerkle StrictProofs EngineProofs MiscProofs TheoremsMisc TheoremsQuery TheoremsGame TheoremsTarget TheoremsIdGame TheoremsLate.
Local Open Scope nat_scope.

(** ** Induction over values *)
Lemma nodes_eq tag ps : nodes (Composite tag ps) = S (list_sum (map nodes (kids ps))).
Proof.
  cbn [nodes]. f_equal. unfold kids. induction ps as [|p ps IH]; [reflexivity|]. cbn [map flat_map list_sum fold_right].
  fold (@list_sum). rewrite map_app, list_sum_app. change (fold_right Nat.add 0) with list_sum. rewrite IH. f_equal.
  destruct p; [reflexivity|unfold list_sum; cbn; lia|reflexivity].
Qed.
Lemma sum_in (x : nat) xs : In x xs -> x <= list_sum xs.
Proof. induction xs as [|y xs IH]; intros I; [destruct I|]. cbn. destruct I as [->|I]; [lia|]. specialize (IH I). unfold list_sum in IH. lia. Qed.
Lemma kid_smaller tag ps x : In x (kids ps) -> nodes x < nodes (Composite tag ps).
Proof. intros I. rewrite nodes_eq. pose proof (sum_in (nodes x) (map nodes (kids ps)) (in_map nodes _ _ I)). lia. Qed.
Lemma composite_rec' (P : composite -> Prop) :
  (forall tag ps, (forall x, In x (kids ps) -> P x) -> P (Composite tag ps)) -> forall v, P v.
Proof.
  intros S v. assert (B : forall m v, nodes v < m -> P v); [|exact (B _ v (Nat.lt_succ_diag_r _))].
  clear v. induction m as [|m IH]; intros v L; [lia|]. destruct v as [tag ps]. apply S. intros x I. apply IH.
  pose proof (kid_smaller tag ps x I). lia.
Qed.
Lemma in_kids {X} (p : part X) ps x : In p ps -> In x (kids_of p) -> In x (kids ps).
Proof. intros I J. unfold kids. apply in_flat_map. eauto. Qed.

Section WithHash.
Context {H : Hasher}.

Lemma every_id_ret {X} (idf : X -> outcome bytes32) xs : forall is, every_id idf xs = Ret is <-> Forall2 (fun x i => idf x = Ret i) xs is.
Proof.
  induction xs as [|x xs IH]; intros is; cbn [every_id]; fold (@every_id X idf).
  - split; [intros [= <-]; constructor|intros F; inversion F; reflexivity].
  - split.
    + destruct (idf x) as [i|] eqn:E; [|discriminate]. cbn [bind]. destruct (every_id idf xs) as [r|] eqn:R; [|discriminate].
      cbn [bind]. intros [= <-]. constructor; [exact E|apply IH; reflexivity].
    + intros F. inversion F as [|? i ? r E R]; subst. rewrite E. cbn [bind]. apply IH in R. rewrite R. reflexivity.
Qed.
Lemma feed_lowers md ps : forall e e', feed_parts md (composite_id md) ps e = Ret e' ->
  exists fs, Forall2 (lowers md) ps fs /\ run md fs e = Ret e'.
Proof.
  induction ps as [|p ps IH]; intros e e' E.
  - cbn in E. injection E as <-. exists []. split; [constructor|reflexivity].
  - cbn [feed_parts] in E. fold (@feed_parts H composite md (composite_id md)) in E.
    match type of E with bind ?o _ = _ => destruct o as [e1|] eqn:E1; [|discriminate] end. cbn [bind] in E.
    destruct (IH _ _ E) as (fs & F & R).
    assert (G : exists f, lowers md p f /\ run1 md f e = Ret e1).
    { destruct p as [f|t x|t xs].
      - exists f. split; [constructor|exact E1].
      - destruct (composite_id md x) as [i|] eqn:Ei.
        + exists (FHash t i). split; [constructor; exact Ei|exact E1].
        + exfalso. revert E1. unfold commit_to_hash. destruct (commitment_fqn t) as [fq|]; [|discriminate]. cbn [bind].
          destruct (push_step e (StHashed fq)); discriminate.
      - destruct (every_id (composite_id md) xs) as [is|] eqn:Ei; [|discriminate].
        exists (FMerkle t is). split; [constructor; apply every_id_ret, Ei|exact E1]. }
    destruct G as (f & Lf & R1). exists (f :: fs). split; [constructor; assumption|]. cbn [run]. rewrite R1. exact R.
Qed.
Lemma lowers_feed md ps fs : Forall2 (lowers md) ps fs -> forall e, feed_parts md (composite_id md) ps e = run md fs e.
Proof.
  induction 1 as [|p f ps fs L F IH]; intros e; [reflexivity|].
  cbn [feed_parts run]. fold (@feed_parts H composite md (composite_id md)).
  assert (G : match p with Plain f => run1 md f e | Inner t x => commit_to_hash md t (composite_id md x) e
              | Inners t xs => is <- every_id (composite_id md) xs ;; commit_to_merkle md t is e end = run1 md f e).
  { destruct L as [f|t x i E|t xs is E]; [reflexivity|cbn [run1]; rewrite E; reflexivity|].
    apply every_id_ret in E. rewrite E. reflexivity. }
  rewrite G. destruct (run1 md f e) as [e1|]; [apply IH|reflexivity].
Qed.
Lemma lowers_fun md p f g : lowers md p f -> lowers md p g -> f = g.
Proof.
  intros L L'. destruct L as [f|t x i E|t xs is E]; inversion L' as [| ? ? j E'|? ? js E']; subst; [reflexivity|congruence|].
  f_equal. apply every_id_ret in E, E'. congruence.
Qed.
Lemma lowers_funs md ps fs : Forall2 (lowers md) ps fs -> forall gs, Forall2 (lowers md) ps gs -> fs = gs.
Proof.
  induction 1 as [|p f ps fs L F IH]; intros gs G; inversion G; subst; [reflexivity|].
  f_equal; [eapply lowers_fun; eassumption|apply IH; assumption].
Qed.

Lemma composite_inv md tag ps id : composite_id md (Composite tag ps) = Ret id ->
  exists fs e bs, Forall2 (lowers md) ps fs /\ run md fs (engine_new tag) = Ret e /\ Forall2 feeds fs bs /\
    id = digest_finish (engine_finish e) /\ id = HASH (s_pre tag (concat bs)).
Proof.
  intros E. cbn [composite_id] in E. destruct (feed_parts md (composite_id md) ps (engine_new tag)) as [e|] eqn:F; [|discriminate].
  cbn [bind] in E. injection E as <-. destruct (feed_lowers md ps _ _ F) as (fs & Lo & R).
  destruct (run_inv md fs _ _ R) as [ss [bs [_ [Fb _]]]]. exists fs, e, bs. repeat split; try assumption.
  exact (c34_digest H md tag fs e bs R Fb).
Qed.
Lemma kid_id md ps fs : Forall2 (lowers md) ps fs -> forall x, In x (kids ps) -> exists i, composite_id md x = Ret i.
Proof.
  induction 1 as [|p f ps fs L F IH]; intros x I; [destruct I|]. unfold kids in I. cbn [flat_map] in I. apply in_app_or in I as [I|I]; [|apply IH, I].
  destruct L as [f|t y i E|t xs is E]; [destruct I|destruct I as [<-|[]]; eauto|].
  clear -E I. induction E as [|y i ys is E Es IH]; [destruct I|]. destruct I as [<-|I]; eauto.
Qed.

Lemma f2_length {X Y} (R : X -> Y -> Prop) xs ys : Forall2 R xs ys -> length xs = length ys.
Proof. induction 1; cbn; congruence. Qed.
Lemma forall2_ex {X Y} (R : X -> Y -> Prop) xs : (forall x, In x xs -> exists y, R x y) -> exists ys, Forall2 R xs ys.
Proof.
  induction xs as [|x xs IH]; intros E; [exists []; constructor|].
  destruct (E x (or_introl eq_refl)) as [y Y1]. destruct IH as [ys Ys]; [intros z I; apply E; right; exact I|]. exists (y :: ys). constructor; assumption.
Qed.
Lemma forall2_in {X Y} (R : X -> list Y -> Prop) xs Ls : Forall2 R xs Ls -> forall x, In x xs -> exists L, R x L /\ incl L (concat Ls).
Proof.
  induction 1 as [|x L xs Ls R1 F IH]; intros y I; [destruct I|]. destruct I as [<-|I].
  - exists L. split; [exact R1|]. cbn. apply incl_appl, incl_refl.
  - destruct (IH y I) as (L' & R' & I'). exists L'. split; [exact R'|]. cbn. apply incl_appr, I'.
Qed.
Lemma parts_same md md' (S : Prop) ps qs : Forall2 resembling ps qs ->
  (forall x y i, In x (kids ps) -> In y (kids qs) -> resembles x y -> composite_id md x = Ret i -> composite_id md' y = Ret i -> x = y \/ S) ->
  forall fs, Forall2 (lowers md) ps fs -> Forall2 (lowers md') qs fs -> ps = qs \/ S.
Proof.
  induction 1 as [|p q ps qs R Rs IH]; intros K fs F G; [left; reflexivity|].
  inversion F as [|? f ? fs' L Ls]; subst. inversion G as [|? ? ? ? L' Ls']; subst.
  assert (Hd : p = q \/ S).
  { destruct R as [f0 g0 _|t x y R|t xs ys _ R].
    - inversion L; inversion L'; subst. left. reflexivity.
    - inversion L as [|? ? i E|]; subst. inversion L' as [|? ? j E'|]; subst.
      destruct (K x y i) as [->|Z]; auto; left; reflexivity.
    - inversion L as [| |? ? is E]; subst. inversion L' as [| |? ? js E']; subst.
      assert (Z : xs = ys \/ S).
      { assert (K' : forall x y i, In x xs -> In y ys -> composite_id md x = Ret i -> composite_id md' y = Ret i -> x = y \/ S).
        { intros x y i I J A B. apply (K x y i); try assumption; [| |apply R; assumption]; unfold kids; cbn; apply in_or_app; left; assumption. }
        clear -E E' K'. revert ys E' K'. induction E as [|x i xs is X Xs IH]; intros ys E' K'; inversion E' as [|y ? ys' ? Y1 Ys]; subst; [left; reflexivity|].
        destruct (K' x y i) as [->|Z]; cbn; auto. destruct (IH ys' Ys) as [->|Z]; [|left; reflexivity|right; exact Z].
        intros u v j I J. apply K'; right; assumption. }
      destruct Z as [->|Z]; [left; reflexivity|right; exact Z]. }
  destruct Hd as [->|Z]; [|right; exact Z].
  destruct (IH) with (fs := fs') as [->|Z]; auto. intros x y i I J. apply K; unfold kids; cbn; apply in_or_app; right; assumption.
Qed.

Definition tops md (M : list (list byte)) x : Prop := forall i, composite_id md x = Ret i ->
  exists s, i = HASH (s_pre (tag_of x) s) /\ In (tag_of x) M /\ In (s_pre (tag_of x) s) M.
Lemma hashes_tops md x L M : hashes md x L -> incl L M -> tops md M x.
Proof.
  intros Hx IL i E. destruct Hx as [tag ps fs bs Lf Ls Lo Fb Hf Hs].
  destruct (composite_inv md tag ps i E) as (fs' & e & bs' & Lo' & R & Fb' & _ & D).
  rewrite <- (lowers_funs md ps fs Lo fs' Lo') in *.
  exists (concat bs). cbn [tag_of]. split; [|split; apply IL; [left|right; left]; reflexivity].
  rewrite D, <- (c34_digest H md tag fs e bs' R Fb'). exact (c34_digest H md tag fs e bs R Fb).
Qed.
Lemma s_pre_tag t u a b : s_pre t a = s_pre u b -> HASH t = HASH u.
Proof.
  unfold s_pre. intros E. apply app_inv_length in E; [|rewrite !b32_length; reflexivity]. destruct E as [E _]. apply b32_inj, E.
Qed.
Lemma root_top ys r L : merkle_root_of ys r -> root_hashed ys L -> length ys <> 1 ->
  exists s, r = HASH (s_pre s_node_tag s) /\ In s_node_tag L /\ In (s_pre s_node_tag s) L.
Proof.
  intros R Hl Ny. destruct R as [a|ys u _ Sy]; [cbn in Ny; lia|].
  inversion Hl as [a E|ys' u' Ny' Sy' E EL]; subst; [cbn in Ny; lia|]. rewrite (splits_fun _ _ Sy' _ Sy).
  destruct (mthash_top (N.of_nat (length ys)) 0 ys u Sy Ny) as [[-> ->]|[a [b [Hx Ix]]]].
  - eexists. split; [cbn [mthash]; unfold s_void; reflexivity|split; [left; reflexivity|right; left; reflexivity]].
  - rewrite Hx. eexists. split; [unfold s_branch; reflexivity|split; [left; reflexivity|right; exact Ix]].
Qed.
Lemma one_not_many (M M' : list (list byte)) tag s s' : tag <> s_node_tag ->
  In tag M -> In (s_pre tag s) M -> In s_node_tag M' -> In (s_pre s_node_tag s') M' ->
  HASH (s_pre tag s) = HASH (s_pre s_node_tag s') -> second_in M M'.
Proof.
  intros D I1 I2 I3 I4 E. destruct (second_or M M' _ _ I2 I4 E) as [Q|C]; [|exact C].
  exists tag, s_node_tag. repeat split; try assumption. exact (s_pre_tag _ _ _ _ Q).
Qed.
Lemma inners_second md md' M M' xs ys is js r L L' :
  Forall2 (fun x i => composite_id md x = Ret i) xs is -> Forall2 (fun x i => composite_id md' x = Ret i) ys js ->
  (length xs = 1 <-> length ys = 1) \/ (forall x, In x (xs ++ ys) -> tag_of x <> s_node_tag) ->
  (forall x, In x xs -> tops md M x) -> (forall y, In y ys -> tops md' M' y) ->
  (N.of_nat (length is) < 2 ^ 32)%N -> (N.of_nat (length js) < 2 ^ 32)%N ->
  merkle_root_of is r -> merkle_root_of js r -> root_hashed is L -> root_hashed js L' -> incl L M -> incl L' M' ->
  is = js \/ second_in M M'.
Proof.
  intros F G O T1 T2 B1 B2 R1 R2 H1 H2 I1 I2.
  pose proof (f2_length _ _ _ F) as Lx. pose proof (f2_length _ _ _ G) as Ly.
  assert (Q : (length is = 1 <-> length js = 1) -> is = js \/ second_in M M').
  { intros One. destruct (merklize_second is js r L L' B1 B2 R1 R2 H1 H2 One) as [->|C]; [left; reflexivity|right; exact (second_mono _ _ _ _ I1 I2 C)]. }
  destruct O as [O|O]; [apply Q; rewrite <- Lx, <- Ly; exact O|].
  destruct (Nat.eq_dec (length is) 1) as [Nx|Nx], (Nat.eq_dec (length js) 1) as [Ny|Ny]; try (apply Q; tauto); right.
  - destruct F as [|x i xs is Ei F]; [discriminate|]. destruct F; [|discriminate].
    inversion R1 as [a Ea|? ? Nn]; subst; [|cbn in Nn; lia].
    destruct (T1 x (or_introl eq_refl) _ Ei) as (s & Es & J1 & J2). destruct (root_top js _ L' R2 H2 Ny) as (s' & Es' & J3 & J4).
    apply (one_not_many M M' (tag_of x) s s'); auto; [apply O; left; reflexivity|congruence].
  - destruct G as [|y j ys js Ej G]; [discriminate|]. destruct G; [|discriminate].
    inversion R2 as [a Ea|? ? Nn]; subst; [|cbn in Nn; lia].
    destruct (T2 y (or_introl eq_refl) _ Ej) as (s & Es & J1 & J2). destruct (root_top is _ L R1 H1 Nx) as (s' & Es' & J3 & J4).
    apply second_swap. apply (one_not_many M' M (tag_of y) s s'); auto; [apply O, in_or_app; right; left; reflexivity|congruence].
Qed.
Lemma part_second md md' M M' p q f g b c r s L L' :
  resembling p q -> lowers md p f -> lowers md' q g -> feeds f b -> feeds g c ->
  (forall x, In x (kids_of p) -> tops md M x) -> (forall y, In y (kids_of q) -> tops md' M' y) -> incl L M -> incl L' M' ->
  (match f, g with FMerkle _ xs, FMerkle _ ys =>
     (N.of_nat (length xs) < 2 ^ 32)%N /\ (N.of_nat (length ys) < 2 ^ 32)%N /\
     root_hashed xs L /\ root_hashed ys L' | _, _ => True end) ->
  b ++ r = c ++ s -> (f = g /\ r = s) \/ second_in M M'.
Proof.
  intros R L1 L2 Fb Fc T1 T2 I1 I2 HM E.
  destruct R as [f0 g0 K|t x y _|t xs ys One _].
  - inversion L1; inversion L2; subst. destruct (field_second f g b c r s L L' K Fb Fc HM E) as [X|C]; [left; exact X|right; exact (second_mono _ _ _ _ I1 I2 C)].
  - inversion L1 as [|? ? i Ei|]; inversion L2 as [|? ? j Ej|]; subst. left.
    cbn [feeds] in Fb, Fc. subst b c. apply (lawful_inj c_b32 any i j r s c_b32_lawful Logic.I Logic.I) in E as [-> ->]. split; reflexivity.
  - inversion L1 as [| |? ? is Ei]; inversion L2 as [| |? ? js Ej]; subst.
    cbn [feeds] in Fb, Fc. destruct Fb as [u [Ru ->]], Fc as [w [Rw ->]], HM as [B1 [B2 [H1 H2]]].
    apply (lawful_inj c_b32 any u w r s c_b32_lawful Logic.I Logic.I) in E as [-> ->].
    destruct (inners_second md md' M M' xs ys is js w L L' Ei Ej One T1 T2 B1 B2 Ru Rw H1 H2 I1 I2) as [->|C]; [left; split; reflexivity|right; exact C].
Qed.
Lemma parts_second md md' M M' ps qs : Forall2 resembling ps qs -> forall fs gs bs cs Lf Lg,
  Forall2 (lowers md) ps fs -> Forall2 (lowers md') qs gs -> Forall2 feeds fs bs -> Forall2 feeds gs cs ->
  Forall (allowed_field md) fs -> Forall (allowed_field md') gs -> fields_hashed fs Lf -> fields_hashed gs Lg -> incl Lf M -> incl Lg M' ->
  (forall x, In x (kids ps) -> tops md M x) -> (forall y, In y (kids qs) -> tops md' M' y) ->
  concat bs = concat cs -> fs = gs \/ second_in M M'.
Proof.
  induction 1 as [|p q ps qs R Rs IH]; intros fs gs bs cs Lf Lg F G Fb Fc Af Ag Hf Hg I1 I2 T1 T2 E;
    inversion F as [|? f ? fs' Lo1 Los1]; subst; inversion G as [|? g ? gs' Lo2 Los2]; subst; [left; reflexivity|].
  inversion Fb as [|? b ? bs' Fb1 Fb2]; subst. inversion Fc as [|? c ? cs' Fc1 Fc2]; subst.
  inversion Af as [|? ? Af1 Af2]; subst. inversion Ag as [|? ? Ag1 Ag2]; subst. cbn [concat] in E.
  assert (MM : (exists t xs, f = FMerkle t xs) <-> (exists t ys, g = FMerkle t ys)).
  { destruct R as [f0 g0 K|t x y _|t xs ys One _]; inversion Lo1; inversion Lo2; subst.
    - destruct K; split; intros (a & b0 & X); try discriminate; eauto.
    - split; intros (a & b0 & X); discriminate.
    - split; intros _; eauto. }
  assert (X : exists L L' Lf' Lg', fields_hashed fs' Lf' /\ fields_hashed gs' Lg' /\
     incl L Lf /\ incl L' Lg /\ incl Lf' Lf /\ incl Lg' Lg /\
     (match f, g with FMerkle _ xs, FMerkle _ ys =>
       (N.of_nat (length xs) < 2 ^ 32)%N /\ (N.of_nat (length ys) < 2 ^ 32)%N /\
       root_hashed xs L /\ root_hashed ys L' | _, _ => True end)).
  { inversion Hf as [|t ls fs0 L Ls RH FH|f0 fs0 Ls NM FH]; subst.
    - destruct (proj1 MM) as (t' & ys & ->); [eauto|]. inversion Hg as [|? ? gs0 L' Ls' RH' FH'|f0 gs0 Ls' NM FH']; subst.
      2:{ exfalso. eapply NM. reflexivity. }
      exists L, L', Ls, Ls'. repeat split; auto; first [apply incl_appl, incl_refl|apply incl_appr, incl_refl].
    - inversion Hg as [|t' ls' gs0 L' Ls' RH' FH'|f1 gs0 Ls' NM' FH']; subst.
      + destruct (proj2 MM) as (t'' & ys & X); [eauto|]. exfalso. eapply NM. exact X.
      + exists [], [], Lf, Lg. repeat split; auto; try (intros x []); try apply incl_refl.
        destruct f; auto. exfalso. eapply NM. reflexivity. }
  destruct X as (L & L' & Lf' & Lg' & X1 & X2 & J1 & J2 & J3 & J4 & X5).
  destruct (part_second md md' M M' p q f g b c (concat bs') (concat cs') L L' R Lo1 Lo2 Fb1 Fc1) as [[-> E']|Co]; try assumption.
  - intros x Ix. apply T1. unfold kids. cbn. apply in_or_app. left. exact Ix.
  - intros x Ix. apply T2. unfold kids. cbn. apply in_or_app. left. exact Ix.
  - eapply incl_tran; eassumption.
  - eapply incl_tran; eassumption.
  - destruct (IH fs' gs' bs' cs' Lf' Lg') as [->|Co]; try assumption; [| | | |left; reflexivity|right; exact Co].
    + eapply incl_tran; eassumption.
    + eapply incl_tran; eassumption.
    + intros x Ix. apply T1. unfold kids. cbn. apply in_or_app. right. exact Ix.
    + intros x Ix. apply T2. unfold kids. cbn. apply in_or_app. right. exact Ix.
  - right. exact Co.
Qed.
End WithHash.

(** ** Properties *)
Lemma c110_strings : forall (H : Hasher) md v id (ok : composite_id md v = Ret id), exists L, hashes md v L.
Proof.
  intros H md v. induction v as [tag ps IH] using composite_rec'. intros id E.
  destruct (composite_inv md tag ps id E) as (fs & e & bs & Lo & R & Fb & _).
  destruct (fields_hashed_exists fs) as [Lf Hf].
  destruct (forall2_ex (hashes md) (kids ps)) as [Ls Hs].
  { intros x I. destruct (kid_id md ps fs Lo x I) as [i Ei]. exact (IH x I i Ei). }
  exists ((tag :: s_pre tag (concat bs) :: Lf) ++ concat Ls). econstructor; eassumption.
Qed.

Lemma c110_extract : forall (H : Hasher) md md' v w id L L'
  (type : resembles v w) (ok1 : composite_id md v = Ret id) (ok2 : composite_id md' w = Ret id)
  (hashed1 : hashes md v L) (hashed2 : hashes md' w L'),
  v = w \/ second_in L L'.
Proof.
  intros H md md' v. induction v as [tag ps IH] using composite_rec'. intros w id L L' T E1 E2 H1 H2.
  inversion T as [? ? qs Rs]; subst.
  destruct (composite_inv md tag ps id E1) as (fs & e & bs & Lo1 & R1 & Fb & D1 & _).
  destruct (composite_inv md' tag qs id E2) as (gs & e' & cs & Lo2 & R2 & Fc & D2 & _).
  inversion H1 as [? ? fs' bs' Lf Ls Lo1' Fb' Hf Hs]; subst. inversion H2 as [? ? gs' cs' Lg Ls' Lo2' Fc' Hg Hs']; subst.
  rewrite <- (lowers_funs md ps fs Lo1 fs' Lo1') in *. rewrite <- (lowers_funs md' qs gs Lo2 gs' Lo2') in *. clear fs' gs' Lo1' Lo2'.
  rewrite (c34_digest H md tag fs e bs' R1 Fb'), (c34_digest H md' tag gs e' cs' R2 Fc') in D2.
  destruct (run_inv md fs _ _ R1) as [ss [_ [_ [_ [Af _]]]]]. destruct (run_inv md' gs _ _ R2) as [ss' [_ [_ [_ [Ag _]]]]].
  set (M := (tag :: s_pre tag (concat bs') :: Lf) ++ concat Ls) in *. set (M' := (tag :: s_pre tag (concat cs') :: Lg) ++ concat Ls') in *.
  destruct (second_or M M' (s_pre tag (concat bs')) (s_pre tag (concat cs')) (or_intror (or_introl eq_refl)) (or_intror (or_introl eq_refl)) D2) as [Q|C]; [|right; exact C].
  apply s_pre_inj in Q.
  assert (IM : incl (concat Ls) M) by apply incl_appr, incl_refl. assert (IM' : incl (concat Ls') M') by apply incl_appr, incl_refl.
  destruct (parts_second md md' M M' ps qs Rs fs gs bs' cs' Lf Lg) as [<-|C]; try assumption.
  - apply incl_appl, incl_tl, incl_tl, incl_refl.
  - apply incl_appl, incl_tl, incl_tl, incl_refl.
  - intros x Ix. destruct (forall2_in _ _ _ Hs x Ix) as (N & HN & IN). apply (hashes_tops md x N M HN). eapply incl_tran; eassumption.
  - intros x Ix. destruct (forall2_in _ _ _ Hs' x Ix) as (N & HN & IN). apply (hashes_tops md' x N M' HN). eapply incl_tran; eassumption.
  - destruct (parts_same md md' (second_in (concat Ls) (concat Ls')) ps qs Rs) with (fs := fs) as [->|C]; try assumption; [|left; reflexivity|].
    + intros x y i Ix J R A B. destruct (forall2_in _ _ _ Hs x Ix) as (N & HN & IN). destruct (forall2_in _ _ _ Hs' y J) as (N' & HN' & IN').
      destruct (IH x Ix y i N N' R A B HN HN') as [->|C]; [left; reflexivity|right]. exact (second_mono _ _ _ _ IN IN' C).
    + right. exact (second_mono _ _ _ _ IM IM' C).
  - right. exact C.
Qed.

(** ** Games *)
Definition p_ids {X} (f : X -> prog bytes32) : list X -> prog (list bytes32) :=
  fix go xs := match xs with [] => Done [] | x :: r => andthen (f x) (fun i => andthen (go r) (fun is => Done (i :: is))) end.
Definition p_parts {X} (f : X -> prog bytes32) : list (part X) -> prog (list field) :=
  fix go ps := match ps with
  | [] => Done []
  | p :: r => andthen (match p with
                       | Plain g => Done g
                       | Inner t x => andthen (f x) (fun i => Done (FHash t i))
                       | Inners t xs => andthen (p_ids f xs) (fun is => Done (FMerkle t is))
                       end) (fun g => andthen (go r) (fun gs => Done (g :: gs)))
  end.
Fixpoint p_composite (n k : nat) (v : composite) : prog bytes32 :=
  match v with Composite tag ps => andthen (p_parts (p_composite n k) ps) (fun fs =>
    if length tag <=? n then p_id n k tag fs else Done (b32_fill x00)) end.

Lemma p_ids_modest {X} n (f : X -> prog bytes32) c xs : (forall x, In x xs -> modest n (c x) (f x)) -> modest n (list_sum (map c xs)) (p_ids f xs).
Proof.
  induction xs as [|x xs IH]; intros M; [exact I|]. cbn [p_ids map]. fold (@p_ids X f). change (list_sum (c x :: map c xs)) with (c x + list_sum (map c xs)).
  apply modest_andthen; [apply M; left; reflexivity|]. intros i. rewrite <- (Nat.add_0_r (list_sum _)). apply modest_andthen; [apply IH; intros y Iy; apply M; right; exact Iy|intros is; exact I].
Qed.
Lemma p_parts_modest {X} n (f : X -> prog bytes32) c ps : (forall x, In x (kids ps) -> modest n (c x) (f x)) -> modest n (list_sum (map c (kids ps))) (p_parts f ps).
Proof.
  induction ps as [|p ps IH]; intros M; [exact I|]. cbn [p_parts]. fold (@p_parts X f). unfold kids. cbn [flat_map]. rewrite map_app, list_sum_app.
  apply modest_andthen.
  - assert (M' : forall x, In x (kids_of p) -> modest n (c x) (f x)) by (intros x Ix; apply M; unfold kids; cbn; apply in_or_app; left; exact Ix).
    destruct p as [g|t x|t xs]; cbn [kids_of map]; [exact I| |].
    + change (list_sum [c x]) with (c x + 0). apply modest_andthen; [apply M'; left; reflexivity|intros i; exact I].
    + rewrite <- (Nat.add_0_r (list_sum _)). apply modest_andthen; [apply p_ids_modest; exact M'|intros is; exact I].
  - intros g. rewrite <- (Nat.add_0_r (list_sum _)). apply modest_andthen; [|intros gs; exact I].
    apply IH. intros x Ix. apply M. unfold kids. cbn. apply in_or_app. right. exact Ix.
Qed.
Lemma sum_scaled {X} (f : X -> nat) c xs : list_sum (map (fun x => f x * c) xs) = list_sum (map f xs) * c.
Proof. induction xs as [|x xs IH]; [reflexivity|]. cbn [map]. change (list_sum (?a :: ?l)) with (a + list_sum l). cbn. unfold list_sum in *. lia. Qed.
Lemma p_composite_modest n k v : 162 <= n -> modest n (nodes v * (k + 2)) (p_composite n k v).
Proof.
  intros N. induction v as [tag ps IH] using composite_rec'. rewrite nodes_eq. cbn [p_composite].
  replace (S (list_sum (map nodes (kids ps))) * (k + 2)) with (list_sum (map (fun x => nodes x * (k + 2)) (kids ps)) + (k + 2)) by (rewrite sum_scaled; lia).
  apply modest_andthen; [apply p_parts_modest; exact IH|]. intros fs. destruct (Nat.leb_spec (length tag) n); [apply p_id_modest; assumption|exact I].
Qed.

Section WithHash2.
Context {H : Hasher}.
Lemma p_ids_exec {X} (f : X -> prog bytes32) idf xs is : Forall2 (fun x i => idf x = Ret i) xs is ->
  (forall x i, In x xs -> idf x = Ret i -> exec H (f x) = i) -> exec H (p_ids f xs) = is.
Proof.
  induction 1 as [|x i xs is E Es IH]; intros K; [reflexivity|]. cbn [p_ids]. fold (@p_ids X f). rewrite !exec_andthen. cbn [exec].
  rewrite (K x i (or_introl eq_refl) E), IH; [reflexivity|]. intros y j Iy. apply K. right. exact Iy.
Qed.
Lemma p_ids_asked {X} (f : X -> prog bytes32) xs x : In x xs -> incl (asked H (f x)) (asked H (p_ids f xs)).
Proof.
  induction xs as [|y xs IH]; intros Ix; [destruct Ix|]. cbn [p_ids]. fold (@p_ids X f). rewrite !asked_andthen.
  destruct Ix as [->|Ix]; [apply incl_appl, incl_refl|apply incl_appr, incl_appl, IH, Ix].
Qed.
Lemma p_parts_exec md n k ps fs : Forall2 (lowers md) ps fs ->
  (forall x i, In x (kids ps) -> composite_id md x = Ret i -> exec H (p_composite n k x) = i) -> exec H (p_parts (p_composite n k) ps) = fs.
Proof.
  induction 1 as [|p f ps fs L F IH]; intros K; [reflexivity|]. cbn [p_parts]. fold (@p_parts composite (p_composite n k)). rewrite !exec_andthen. cbn [exec].
  f_equal; [|apply IH; intros x i Ix; apply K; unfold kids; cbn; apply in_or_app; right; exact Ix].
  assert (K' : forall x i, In x (kids_of p) -> composite_id md x = Ret i -> exec H (p_composite n k x) = i)
    by (intros x i Ix; apply K; unfold kids; cbn; apply in_or_app; left; exact Ix).
  destruct L as [f|t x i E|t xs is E]; [reflexivity| |]; rewrite exec_andthen; cbn [exec]; f_equal; [apply K'; [left; reflexivity|exact E]|].
  apply (p_ids_exec (p_composite n k) (composite_id md)); [exact E|exact K'].
Qed.
Lemma p_parts_asked {X} (f : X -> prog bytes32) ps x : In x (kids ps) -> incl (asked H (f x)) (asked H (p_parts f ps)).
Proof.
  induction ps as [|p ps IH]; intros Ix; [destruct Ix|]. cbn [p_parts]. fold (@p_parts X f). rewrite !asked_andthen.
  unfold kids in Ix. cbn in Ix. apply in_app_or in Ix as [Ix|Ix]; [apply incl_appl|apply incl_appr, incl_appl, IH, Ix].
  destruct p as [g|t y|t ys]; [destruct Ix| |]; rewrite asked_andthen; apply incl_appl; [|apply p_ids_asked, Ix].
  destruct Ix as [->|[]]. apply incl_refl.
Qed.

Lemma p_composite_spec md n k v : handy md n k v -> (forall id, composite_id md v = Ret id -> exec H (p_composite n k v) = id) /\
  (forall id, composite_id md v = Ret id -> exists L, hashes md v L /\ incl L (asked H (p_composite n k v))).
Proof.
  induction v as [tag ps IH] using composite_rec'. intros Hy. inversion Hy as [? ? fs Lo T (W & bs & Fb & B) Hk]; subst.
  rewrite Forall_forall in Hk.
  assert (X : exec H (p_parts (p_composite n k) ps) = fs).
  { apply (p_parts_exec md n k ps fs Lo). intros x i Ix E. exact (proj1 (IH x Ix (Hk x Ix)) i E). }
  destruct (p_id_spec H n k tag fs bs W Fb B) as (XI & Lf & FH & IL).
  assert (P : exec H (p_composite n k (Composite tag ps)) = @HASH H (s_pre tag (concat bs)) /\
              asked H (p_composite n k (Composite tag ps)) = asked H (p_parts (p_composite n k) ps) ++ asked H (p_id n k tag fs)).
  { cbn [p_composite]. rewrite exec_andthen, asked_andthen, X, (proj2 (Nat.leb_le _ _) T). split; [exact XI|reflexivity]. }
  destruct P as [P1 P2]. split; intros id E; destruct (composite_inv md tag ps id E) as (fs' & e & bs' & Lo' & R & Fb' & _ & D);
    rewrite <- (lowers_funs md ps fs Lo fs' Lo') in *.
  - rewrite P1. rewrite D. rewrite <- (c34_digest H md tag fs e bs R Fb). apply (c34_digest H md tag fs e bs' R Fb').
  - destruct (forall2_ex (fun x L => hashes md x L /\ incl L (asked H (p_parts (p_composite n k) ps))) (kids ps)) as [Ls Hs].
    { intros x Ix. destruct (kid_id md ps fs Lo x Ix) as [i Ei]. destruct (proj2 (IH x Ix (Hk x Ix)) i Ei) as (L & HL & IL').
      exists L. split; [exact HL|]. eapply incl_tran; [exact IL'|apply p_parts_asked, Ix]. }
    exists ((tag :: s_pre tag (concat bs) :: Lf) ++ concat Ls). split.
    + apply (ha_node md tag ps fs bs Lf Ls Lo Fb FH). clear -Hs. induction Hs as [|x L xs Ls [A _] Hs IH]; constructor; assumption.
    + rewrite P2. apply incl_app; [apply incl_appr; intros s [<-|Is]; [|apply IL, Is]; unfold p_id; rewrite (proj2 (Nat.leb_le _ _) W); left; reflexivity|apply incl_appl]. clear -Hs. intros s Is.
      induction Hs as [|x L xs Ls [_ B] Hs IH]; [destruct Is|]. cbn in Is. apply in_app_or in Is as [Is|Is]; auto.
Qed.
End WithHash2.

Lemma c110_forged : forall n U q k m (adversary : prog (composite * composite))
  (strings : universe n U) (short : 162 <= n) (few : modest n q adversary),
  let Q := N.of_nat (q + m * (k + 2)) in
  rare U (fun H => let '(v, w) := exec H adversary in
            v <> w /\ resembles v w /\ nodes v + nodes w <= m /\
            exists md md' id, @handy H md n k v /\ @handy H md' n k w /\
              @composite_id H md v = Ret id /\ @composite_id H md' w = Ret id)
       (Q * (Q - 1)) (2 ^ 257).
Proof.
  intros n U q k m adv UU N M. cbv zeta.
  replace (N.of_nat (q + m * (k + 2)) - 1)%N with (N.of_nat (q + m * (k + 2) - 1)) by lia.
  apply (rare_game n U adv (fun '(v, w) => if nodes v + nodes w <=? m then andthen (p_composite n k v) (fun _ => p_composite n k w) else Done (b32_fill x00)) q (m * (k + 2))); try assumption.
  - intros [v w]. destruct (Nat.leb_spec (nodes v + nodes w) m) as [L|]; [|exact I].
    apply (modest_mono n _ (nodes v * (k + 2) + nodes w * (k + 2))); [nia|]. apply modest_andthen; [|intros _]; apply p_composite_modest, N.
  - intros H. destruct (exec H adv) as [v w]. intros (D & T & Sz & md & md' & id & Y1 & Y2 & E1 & E2).
    rewrite (proj2 (Nat.leb_le _ _) Sz).
    destruct (proj2 (p_composite_spec md n k v Y1) id E1) as (L & H1 & I1).
    destruct (proj2 (p_composite_spec md' n k w Y2) id E2) as (L' & H2 & I2).
    destruct (c110_extract H md md' v w id L L' T E1 E2 H1 H2) as [X|(x & y & Ix & Iy & Nxy & E)]; [contradiction|].
    exists x, y. rewrite asked_andthen, !in_app_iff. repeat split; auto.
Qed.

Lemma p_every_sum {X A} n (c : X -> nat) (f : X -> prog A) xs : (forall x, modest n (c x) (f x)) -> modest n (list_sum (map c xs)) (p_every f xs).
Proof.
  intros M. induction xs as [|x xs IH]; [exact I|]. cbn [p_every map]. change (list_sum (c x :: map c xs)) with (c x + list_sum (map c xs)).
  apply modest_andthen; [apply M|intros _; exact IH].
Qed.
Lemma c110_replaced : forall n U q k m (made : list composite) (adversary : prog composite)
  (strings : universe n U) (short : 162 <= n) (few : modest n q adversary),
  let K := N.of_nat (list_sum (map nodes made) * (k + 2)) in
  rare U (fun H => let w := exec H adversary in
            nodes w <= m /\
            exists v md md' id, In v made /\ v <> w /\ resembles v w /\ @handy H md n k v /\ @handy H md' n k w /\
              @composite_id H md v = Ret id /\ @composite_id H md' w = Ret id)
       (K * (K - 1) + 2 * K * N.of_nat (q + m * (k + 2))) (2 ^ 257).
Proof.
  intros n U q k m made adv UU N M. cbv zeta. rewrite <- (sum_scaled nodes (k + 2) made). set (j := list_sum (map (fun x => nodes x * (k + 2)) made)).
  replace (N.of_nat j - 1)%N with (N.of_nat (j - 1)) by lia.
  apply (rare_late n U (p_every (p_composite n k) made) adv (fun w => if nodes w <=? m then p_composite n k w else Done (b32_fill x00))); try assumption.
  - apply (p_every_sum n (fun x => nodes x * (k + 2))). intros v. apply p_composite_modest, N.
  - intros w. destruct (Nat.leb_spec (nodes w) m) as [L|]; [|exact I]. apply (modest_mono n _ (nodes w * (k + 2))); [nia|apply p_composite_modest, N].
  - intros H. set (w := exec H adv). intros (Sz & v & md & md' & id & Iv & D & T & Y1 & Y2 & E1 & E2). rewrite (proj2 (Nat.leb_le _ _) Sz).
    destruct (proj2 (p_composite_spec md n k v Y1) id E1) as (L & H1 & I1).
    destruct (proj2 (p_composite_spec md' n k w Y2) id E2) as (L' & H2 & I2).
    destruct (c110_extract H md md' v w id L L' T E1 E2 H1 H2) as [X|X]; [contradiction|].
    eapply second_mono; [|exact I2|exact X]. eapply incl_tran; [exact I1|]. apply (p_every_asked H (p_composite n k) made v Iv).
Qed.

(** The id is what CommitId::commit_id gives for any implementation feeding these parts; it is defined alike in both modes
    where the fields can be fed. *)
Lemma c110_model : forall (H : Hasher) md X (I : commit_encode X) (parts : X -> list (part composite)) v
  (encoder : forall e, ce_encode I md v e = feed_parts md (composite_id md) (parts v) e),
  commit_id md I v = composite_id md (Composite (ce_tag I) (parts v)).
Proof.
  intros H md X I parts v E. unfold commit_id, commit. rewrite E. cbn [composite_id].
  destruct (feed_parts md (composite_id md) (parts v) (engine_new (ce_tag I))); reflexivity.
Qed.

(** ** When ids are defined *)
Section WithHash3.
Context {H : Hasher}.
Lemma run_all md fs : forall e, en_finished e = false ->
  (exists e', run md fs e = Ret e') <-> (fs = [] \/ length (en_layout e) + length fs <= 255) /\ Forall (fun f => (exists s, step_for f s) /\ allowed_field md f) fs.
Proof.
  induction fs as [|f fs IH]; intros e Fin.
  - cbn. split; [intros _; split; [left; reflexivity|constructor]|intros _; eauto].
  - cbn [run]. split.
    + intros [e' E]. destruct (run1 md f e) as [e1|] eqn:E1; [|discriminate]. cbn [bind] in E.
      destruct (proj1 (c36_defined H md f e)) as (Ln & _ & S1 & A1); [eauto|].
      destruct (c36_effect H md f e e1 E1) as (s & b & _ & _ & EL & _ & EF).
      destruct (proj1 (IH e1 ltac:(congruence))) as [B Fs]; [eauto|]. split; [|constructor; [split; assumption|exact Fs]].
      right. cbn [length]. destruct B as [->|B]; [cbn; lia|]. rewrite EL, app_length in B. cbn in B. lia.
    + intros [[X|B] Fs]; [discriminate|]. inversion Fs as [|? ? [S1 A1] Fs']; subst. cbn [length] in B.
      destruct (proj2 (c36_defined H md f e)) as [e1 E1]; [repeat split; try assumption; [lia|intros _; exact Fin]|].
      destruct (c36_effect H md f e e1 E1) as (s & b & _ & _ & EL & _ & EF). rewrite E1. cbn [bind].
      apply (IH e1 ltac:(congruence)). split; [|exact Fs']. destruct fs; [left; reflexivity|right]. rewrite EL, app_length. cbn [length] in *. lia.
Qed.
Lemma lowers_ok md p f : lowers md p f -> ((exists s, step_for f s) /\ allowed_field md f) <-> part_ok md p.
Proof.
  intros L. destruct L as [f|t x i E|t xs is E]; cbn [part_ok step_for allowed_field]; [tauto| |].
  - split; [intros [(s & q & Q & _) _]; eauto|intros [q Q]; split; [eauto|exact Logic.I]].
  - rewrite (f2_length _ _ _ E). split; [intros [(s & q & Q & _) B]; eauto|intros [[q Q] B]; eauto].
Qed.
Lemma lowers_all md ps fs : Forall2 (lowers md) ps fs -> Forall (fun f => (exists s, step_for f s) /\ allowed_field md f) fs <-> Forall (part_ok md) ps.
Proof.
  induction 1 as [|p f ps fs L F IH]; [split; constructor|]. rewrite !Forall_cons_iff, (lowers_ok md p f L), IH. reflexivity.
Qed.
Lemma lowers_ex md ps : (forall x, In x (kids ps) -> exists i, composite_id md x = Ret i) -> exists fs, Forall2 (lowers md) ps fs.
Proof.
  intros K. apply forall2_ex. intros p Ip. destruct p as [f|t x|t xs]; [exists f; constructor| |].
  - destruct (K x) as [i Ei]; [apply (in_kids _ _ _ Ip); left; reflexivity|]. exists (FHash t i). constructor. exact Ei.
  - destruct (forall2_ex (fun x i => composite_id md x = Ret i) xs) as [is Es]; [|exists (FMerkle t is); constructor; exact Es].
    intros x Ix. apply K, (in_kids _ _ _ Ip), Ix.
Qed.
End WithHash3.

Lemma c110_defined : forall (H : Hasher) md v, (exists id, composite_id md v = Ret id) <-> committable md v.
Proof.
  intros H md v. induction v as [tag ps IH] using composite_rec'. split.
  - intros [id E]. destruct (composite_inv md tag ps id E) as (fs & e & bs & Lo & R & _).
    destruct (proj1 (run_all md fs (engine_new tag) eq_refl)) as [B F]; [eauto|].
    constructor; [|apply (lowers_all md ps fs Lo), F|].
    + rewrite (f2_length _ _ _ Lo). destruct B as [->|B]; [cbn; lia|]. cbn in B. exact B.
    + rewrite Forall_forall. intros x Ix. apply (IH x Ix). exact (kid_id md ps fs Lo x Ix).
  - intros C. inversion C as [? ? B F K]; subst. rewrite Forall_forall in K.
    destruct (lowers_ex md ps) as [fs Lo]; [intros x Ix; apply (IH x Ix), (K x Ix)|].
    destruct (proj2 (run_all md fs (engine_new tag) eq_refl)) as [e R].
    { split; [right; rewrite <- (f2_length _ _ _ Lo); exact B|apply (lowers_all md ps fs Lo), F]. }
    eexists. cbn [composite_id]. rewrite (lowers_feed md ps fs Lo), R. reflexivity.
Qed.

Lemma composite_value (H : Hasher) md tag ps fs bs : committable md (Composite tag ps) -> Forall2 (lowers md) ps fs -> Forall2 feeds fs bs ->
  composite_id md (Composite tag ps) = Ret (HASH (s_pre tag (concat bs))).
Proof.
  intros C Lo Fb. destruct (proj2 (c110_defined H md (Composite tag ps)) C) as [id E]. rewrite E.
  destruct (composite_inv md tag ps id E) as (fs' & e & bs' & Lo' & R & Fb' & D & _).
  rewrite <- (lowers_funs md ps fs Lo fs' Lo') in R. rewrite D. f_equal. exact (c34_digest H md tag fs e bs R Fb).
Qed.
(** A value and the collection of this one value are committed to alike. *)
Lemma c110_wrapped : forall (H : Hasher) md tag before after t x id,
  composite_id md (Composite tag (before ++ Inner t x :: after)) = Ret id <->
  composite_id md (Composite tag (before ++ Inners t [x] :: after)) = Ret id.
Proof.
  intros H md tag before after t x.
  assert (K : kids (before ++ Inner t x :: after) = kids (before ++ Inners t [x] :: after)) by (unfold kids; rewrite !flat_map_app; reflexivity).
  assert (C : committable md (Composite tag (before ++ Inner t x :: after)) <-> committable md (Composite tag (before ++ Inners t [x] :: after))).
  { split; intros C; inversion C as [? ? B F Kd]; subst; constructor;
      [rewrite app_length in *; exact B| |first [rewrite <- K|rewrite K]; exact Kd|rewrite app_length in *; exact B| |first [rewrite K|rewrite <- K]; exact Kd];
      rewrite Forall_app, Forall_cons_iff in *; cbn [part_ok length] in *; intuition lia. }
  assert (Q : committable md (Composite tag (before ++ Inner t x :: after)) ->
    composite_id md (Composite tag (before ++ Inner t x :: after)) = composite_id md (Composite tag (before ++ Inners t [x] :: after))).
  { intros Cm. pose proof (proj1 C Cm) as Cm'.
    destruct (proj2 (c110_defined H md _) Cm) as [id E]. destruct (composite_inv md tag _ id E) as (fs & e & bs & Lo & _ & Fb & _).
    apply Forall2_app_inv_l in Lo as (f1 & f2 & L1 & L2 & ->). inversion L2 as [|? f ? f3 L3 L4]; subst. inversion L3 as [|? ? i Ei|]; subst.
    apply Forall2_app_inv_l in Fb as (b1 & b2 & B1 & B2 & ->). inversion B2 as [|? b ? b3 B3 B4]; subst. cbn [feeds] in B3. subst b.
    rewrite (composite_value H md tag _ (f1 ++ FHash t i :: f3) (b1 ++ b32 i :: b3)); [|exact Cm|apply Forall2_app; [exact L1|constructor; [exact L3|exact L4]]|apply Forall2_app; [exact B1|constructor; [reflexivity|exact B4]]].
    rewrite (composite_value H md tag _ (f1 ++ FMerkle t [i] :: f3) (b1 ++ b32 i :: b3)); [reflexivity|exact Cm'| |].
    - apply Forall2_app; [exact L1|constructor; [|exact L4]]. constructor. constructor; [exact Ei|constructor].
    - apply Forall2_app; [exact B1|constructor; [|exact B4]]. exists i. split; [constructor|reflexivity]. }
  intros id. split; intros E.
  - rewrite <- Q; [exact E|]. apply (c110_defined H md). eauto.
  - rewrite Q; [exact E|]. apply C. apply (c110_defined H md). eauto.
Qed.
Lemma c110_node_tag : forall (H : Hasher) md tag t (u8 : typed N) x y
  (named : exists q, has_fqn t q) (byte : exists q, has_fqn (ty u8) q) (codec : ty_codec u8 = c_le 1) (free : not_reserved_type (ty u8))
  (ok1 : committable md x) (ok2 : committable md y),
  exists id, composite_id md (Composite tag [Inners t [x; y]]) = Ret id /\
    composite_id md (Composite tag [Inners t [disguise u8 t x y]]) = Ret id.
Proof.
  intros H md tag t u8 x y Nt Nu Cu Fr C1 C2.
  destruct (proj2 (c110_defined H md x) C1) as [i Ei]. destruct (proj2 (c110_defined H md y) C2) as [j Ej].
  set (r := HASH (s_branch 0 2 i j)).
  assert (Cz : committable md (disguise u8 t x y)).
  { destruct Nt as [q Q]. destruct Nu as [q' Q']. constructor; [cbn; lia| |repeat (apply Forall_cons; [assumption|]); apply Forall_nil].
    repeat apply Forall_cons; try apply Forall_nil; cbn [part_ok step_for allowed_field]; eauto 6. }
  assert (Ez : composite_id md (disguise u8 t x y) = Ret r).
  { unfold disguise. rewrite (composite_value H md s_node_tag _ [FSerialized u8 2%N; FSerialized u8 0%N; FHash t (b32_of_N 2); FHash t i; FHash t j]
      [enc (c_le 1) 2%N; enc (c_le 1) 0%N; b32 (b32_of_N 2); b32 i; b32 j]).
    - unfold r, s_branch. do 3 f_equal. cbn [concat]. rewrite app_nil_r. change (N.of_nat 0) with 0%N.
      replace (b32 (b32_of_N 2)) with (le 32 2); [reflexivity|]. vm_compute. reflexivity.
    - exact Cz.
    - repeat constructor; assumption.
    - repeat constructor; cbn [feeds]; rewrite ?Cu; reflexivity. }
  exists (HASH (s_pre tag (concat [b32 r]))).
  assert (Ct : forall xs, (exists q, has_fqn t q) -> Forall (committable md) xs -> length xs <= 2 -> committable md (Composite tag [Inners t xs])).
  { intros xs Q F L. constructor; [cbn; lia| |].
    - constructor; [|constructor]. split; [exact Q|]. lia.
    - unfold kids. cbn. rewrite app_nil_r. exact F. }
  split.
  - apply (composite_value H md tag _ [FMerkle t [i; j]]).
    + apply Ct; [exact Nt|repeat (apply Forall_cons; [assumption|]); apply Forall_nil|cbn; lia].
    + repeat constructor; assumption.
    + constructor; [|constructor]. exists r. split; [|reflexivity].
      apply (root_tree [i; j] (TTwo i j)); [cbn; lia|constructor].
  - apply (composite_value H md tag _ [FMerkle t [r]]).
    + apply Ct; [exact Nt|repeat (apply Forall_cons; [assumption|]); apply Forall_nil|cbn; lia].
    + repeat constructor; assumption.
    + constructor; [|constructor]. exists r. split; [constructor|reflexivity].
Qed.

Lemma c110_numbers : forall n U q k m (adversary : prog (composite * composite))
  (strings : universe n U) (short : 162 <= n) (few : modest n q adversary)
  (questions : (N.of_nat q <= 2 ^ 100)%N) (values : (N.of_nat m <= 2 ^ 40)%N) (leaves : (N.of_nat k <= 2 ^ 40)%N),
  rare U (fun H => let '(v, w) := exec H adversary in
            v <> w /\ resembles v w /\ nodes v + nodes w <= m /\
            exists md md' id, @handy H md n k v /\ @handy H md' n k w /\
              @composite_id H md v = Ret id /\ @composite_id H md' w = Ret id)
       1 (2 ^ 56).
Proof.
  intros n U q k m adv UU N M Bq Bm Bk.
  pose proof (c110_forged n U q k m adv UU N M) as R. cbv zeta in R.
  refine (rare_weaken U _ _ _ _ _ _ _ R); [|vm_compute; discriminate]. clear R.
  assert (B : (N.of_nat (m * (k + 2)) <= 2 ^ 82)%N).
  { rewrite Nat2N.inj_mul, Nat2N.inj_add. change (N.of_nat 2) with 2%N. change (2 ^ 82)%N with (2 ^ 40 * 2 ^ 42)%N. apply N.mul_le_mono; [exact Bm|]. lia. }
  assert (Q : (N.of_nat (q + m * (k + 2)) <= 2 ^ 100 + 2 ^ 82)%N) by (rewrite Nat2N.inj_add; lia).
  transitivity ((2 ^ 100 + 2 ^ 82) * (2 ^ 100 + 2 ^ 82) * 2 ^ 56)%N; [|vm_compute; discriminate].
  apply N.mul_le_mono_r, N.mul_le_mono; lia.
Qed.
