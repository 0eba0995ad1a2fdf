(** C108: values, lists and operations committed to beforehand are not replaced. *)
From Verif Require Import Base BaseFacts OrdMap Digest Merkle MpcAtoms MpcTree MpcBlock Engine Seals Api Strict.
From Verif Require Import SpecHash SpecTree SpecMerkle SpecFull SpecValid SpecCommit SpecCodec SpecEngine SpecMisc SpecFind SpecQuery SpecEnd SpecGame SpecTarget SpecIdGame SpecLate.
From Verif Require Import OrdMapFacts MerkleProofs HashFacts BlockInv StrictProofs EngineProofs MiscProofs TheoremsMpc TheoremsMerkle TheoremsMisc TheoremsExt TheoremsMore TheoremsLocal TheoremsQuery TheoremsGame TheoremsEnd TheoremsTarget TheoremsIdGame.
Local Open Scope nat_scope.

(** ** Extraction *)
Section WithHash.
Context {H : Hasher}.

Lemma mthash_second W xs ys t u d :
  splits xs t -> splits ys u -> length xs = length ys ->
  mthash W d t = mthash W d u -> xs = ys \/ second_in (mtpre W d t) (mtpre W d u).
Proof.
  intros S1; revert ys u d.
  induction S1 as [|a|a b|xs1 xs2 l r L Hs S1 IH1 S2 IH2]; intros ys u d S' Ln E.
  - destruct ys; [left; reflexivity|discriminate].
  - destruct ys as [|a' [|]]; try discriminate.
    inversion S' as [| | |? ? ? ? L' Hs' X1 X2 Q Q']; subst.
    + destruct (second_or [s_single d W a] [s_single d W a'] (s_single d W a) (s_single d W a')) as [Q|C]; cbn; auto.
      apply s_single_inj in Q. left. congruence.
    + rewrite Q in L'. cbn in L'. lia.
  - destruct ys as [|a' [|b' [|]]]; try discriminate.
    inversion S' as [| | |? ? ? ? L' Hs' X1 X2 Q Q']; subst.
    + destruct (second_or [s_branch d W a b] [s_branch d W a' b'] (s_branch d W a b) (s_branch d W a' b')) as [Q|C]; cbn; auto.
      apply s_branch_inj_children in Q as [-> ->]. left. reflexivity.
    + rewrite Q in L'. cbn in L'. lia.
  - inversion S' as [Q Q'|a Q Q'|a b Q Q'|ys1 ys2 l' r' L' Hs' X1 X2 Q Q'];
      [subst; rewrite Ln in L; cbn in L; lia..|].
    subst ys u.
    destruct (split_sizes _ _ _ _ Hs Hs' Ln) as [L1 L2].
    destruct (second_or (mtpre W d (TSplit l r)) (mtpre W d (TSplit l' r')) _ _ (or_introl eq_refl) (or_introl eq_refl) E) as [E'|C]; [|right; exact C].
    apply s_branch_inj_children in E' as [E1 E2].
    destruct (IH1 _ _ _ X1 L1 E1) as [->|C].
    + destruct (IH2 _ _ _ X2 L2 E2) as [->|C]; [left; reflexivity|right].
      eapply second_mono; [| |exact C]; cbn [mtpre]; apply incl_tl, incl_appr, incl_refl.
    + right. eapply second_mono; [| |exact C]; cbn [mtpre]; apply incl_tl, incl_appl, incl_refl.
Qed.
Lemma merklize_second xs ys r L L' :
  (N.of_nat (length xs) < 2 ^ 32)%N -> (N.of_nat (length ys) < 2 ^ 32)%N ->
  merkle_root_of xs r -> merkle_root_of ys r -> root_hashed xs L -> root_hashed ys L' ->
  (length xs = 1 <-> length ys = 1) -> xs = ys \/ second_in L L'.
Proof.
  intros B1 B2 R1 R2 H1 H2 N1.
  destruct R1 as [a|xs t Nx Sx].
  - inversion R2 as [a' E|? ? Ny]; subst; [left; reflexivity|]. exfalso. apply Ny, N1. reflexivity.
  - inversion R2 as [a' E|ys' u Ny Sy E Er].
    { subst. exfalso. apply Nx, N1. reflexivity. }
    subst ys'.
    inversion H1 as [a E1|xs' t' Nx' Sx' E1 EL]; [subst; cbn in Nx; lia|subst xs'].
    inversion H2 as [a E2|ys' u' Ny' Sy' E2 EL']; [subst; cbn in Ny; lia|subst ys'].
    rewrite <- (splits_fun _ _ Sx _ Sx'). rewrite <- (splits_fun _ _ Sy _ Sy').
    assert (G : length xs = length ys \/
       second_in (s_node_tag :: mtpre (N.of_nat (length xs)) 0 t) (s_node_tag :: mtpre (N.of_nat (length ys)) 0 u)).
    { set (Wx := N.of_nat (length xs)) in *. set (Wy := N.of_nat (length ys)) in *.
      assert (B256 : (2 ^ 32 < 2 ^ 256)%N) by reflexivity.
      destruct (mthash_top Wx 0 xs t Sx Nx) as [[-> ->]|[a [b [Hx Ix]]]];
      destruct (mthash_top Wy 0 ys u Sy Ny) as [[-> ->]|[a' [b' [Hy Iy]]]].
      - left; reflexivity.
      - rewrite Hy in Er. cbn [mthash] in Er. right.
        exists (s_void 0 Wx), (s_branch 0 Wy a' b'). split; [right; left; reflexivity|split; [right; exact Iy|split; [apply s_void_branch|congruence]]].
      - rewrite Hx in Er. cbn [mthash] in Er. right.
        exists (s_branch 0 Wx a b), (s_void 0 Wy). split; [right; exact Ix|split; [right; left; reflexivity|split; [|congruence]]].
        intros Q. symmetry in Q. exact (s_void_branch _ _ _ _ _ _ Q).
      - rewrite Hx, Hy in Er.
        destruct (second_or (s_node_tag :: mtpre Wx 0 t) (s_node_tag :: mtpre Wy 0 u) _ _ (or_intror Ix) (or_intror Iy) (eq_sym Er)) as [Q|C]; [|right; exact C].
        apply s_branch_inj in Q as [_ [Q _]]; [|lia|lia|lia|lia]. left. unfold Wx, Wy in Q. lia. }
    destruct G as [G|C]; [|right; exact C]. rewrite <- G in Er |- *.
    destruct (mthash_second (N.of_nat (length xs)) xs ys t u 0 Sx Sy G (eq_sym Er)) as [->|C]; [left; reflexivity|right].
    eapply second_mono; [| |exact C]; apply incl_tl, incl_refl.
Qed.

Lemma field_second f g b c r s L L' :
  same_kind f g -> feeds f b -> feeds g c ->
  (match f, g with FMerkle _ xs, FMerkle _ ys =>
     (N.of_nat (length xs) < 2 ^ 32)%N /\ (N.of_nat (length ys) < 2 ^ 32)%N /\
     root_hashed xs L /\ root_hashed ys L' | _, _ => True end) ->
  b ++ r = c ++ s -> (f = g /\ r = s) \/ second_in L L'.
Proof.
  intros SK Fb Fc HM E.
  assert (O : (forall t xs, f <> FMerkle t xs) -> (f = g /\ r = s) \/ second_in L L').
  { intros NM. left. destruct (field_inj f g b c r s [] [] SK Fb Fc) as [X|(x & y & [] & _)]; [|exact E|exact X].
    destruct f; try exact I. destruct (NM t leaves eq_refl). }
  destruct SK as [A T val v w LW Vv Vw|A T val v w LW Vv Vw|t i j|t xs ys N1|C t CT val v w LW Vv Vw
                 |A T val min max l m LW Fl Fm Hl Hm Hx|A T val min max l m LW Fl Fm Hl Hm Hx
                 |K V TK TV vk vv min max l m LK LV Fl Fm Hl Hm Hx]; try (apply O; discriminate).
  cbn [feeds] in Fb, Fc. destruct Fb as [x [Rx ->]], Fc as [y [Ry ->]], HM as [B1 [B2 [H1 H2]]].
  apply (lawful_inj c_b32 any x y r s c_b32_lawful I I) in E as [-> ->].
  destruct (merklize_second xs ys y L L' B1 B2 Rx Ry H1 H2 N1) as [->|Co]; auto.
Qed.
Lemma fields_second fs gs : Forall2 same_kind fs gs -> forall bs cs Lf Lg md md',
  Forall2 feeds fs bs -> Forall2 feeds gs cs ->
  Forall (allowed_field md) fs -> Forall (allowed_field md') gs ->
  fields_hashed fs Lf -> fields_hashed gs Lg ->
  concat bs = concat cs -> fs = gs \/ second_in Lf Lg.
Proof.
  induction 1 as [|f g fs gs SK F2 IH]; intros bs cs Lf Lg md md' Fb Fc Af Ag Hf Hg E; [left; reflexivity|].
  inversion Fb as [|? b ? bs' Fb1 Fb2]; subst. inversion Fc as [|? c ? cs' Fc1 Fc2]; subst.
  inversion Af as [|? ? Af1 Af2]; subst. inversion Ag as [|? ? Ag1 Ag2]; subst.
  cbn [concat] in E.
  assert (X : exists L L' Lf' Lg', fields_hashed fs Lf' /\ fields_hashed gs Lg' /\
     incl L Lf /\ incl L' Lg /\ incl Lf' Lf /\ incl Lg' Lg /\
     (match f, g with FMerkle _ xs, FMerkle _ ys =>
       (N.of_nat (length xs) < 2 ^ 32)%N /\ (N.of_nat (length ys) < 2 ^ 32)%N /\
       root_hashed xs L /\ root_hashed ys L' | _, _ => True end)).
  { inversion Hf as [|t ls fs0 L Ls RH FH|f0 fs0 Ls NM FH]; subst.
    - inversion SK; subst. inversion Hg as [|t' ls' gs0 L' Ls' RH' FH'|f0 gs0 Ls' NM FH']; subst.
      2:{ exfalso. eapply NM. reflexivity. }
      exists L, L', Ls, Ls'. repeat split; auto; first [apply incl_appl, incl_refl|apply incl_appr, incl_refl].
    - inversion Hg as [|t' ls' gs0 L' Ls' RH' FH'|f1 gs0 Ls' NM' FH']; subst.
      + inversion SK; subst. exfalso. eapply NM. reflexivity.
      + exists [], [], Lf, Lg. repeat split; auto; try (intros x []); try apply incl_refl.
        destruct f; auto. exfalso. eapply NM. reflexivity. }
  destruct X as (L & L' & Lf' & Lg' & X1 & X2 & I1 & I2 & I3 & I4 & X5).
  destruct (field_second f g b c (concat bs') (concat cs') L L' SK Fb1 Fc1 X5 E) as [[-> E']|Co].
  - destruct (IH bs' cs' Lf' Lg' md md' Fb2 Fc2 Af2 Ag2 X1 X2 E') as [->|Co]; [left; reflexivity|right].
    exact (second_mono _ _ _ _ I3 I4 Co).
  - right. exact (second_mono _ _ _ _ I1 I2 Co).
Qed.
End WithHash.

Lemma c108_extract : forall (H : Hasher) md md' tag fs gs e e' bs cs Lf Lg
  (fed1 : run md fs (engine_new tag) = Ret e) (fed2 : run md' gs (engine_new tag) = Ret e')
  (kinds : Forall2 same_kind fs gs) (bytes1 : Forall2 feeds fs bs) (bytes2 : Forall2 feeds gs cs)
  (hashed1 : fields_hashed fs Lf) (hashed2 : fields_hashed gs Lg)
  (same : digest_finish (engine_finish e) = digest_finish (engine_finish e')),
  fs = gs \/ second_in (s_pre tag (concat bs) :: Lf) (s_pre tag (concat cs) :: Lg).
Proof.
  intros H md md' tag fs gs e e' bs cs Lf Lg R1 R2 SK Fb Fc Hf Hg E.
  rewrite (c34_digest H md tag fs e bs R1 Fb), (c34_digest H md' tag gs e' cs R2 Fc) in E.
  apply run_inv in R1 as [ss [bs' [_ [Fb' [Af _]]]]].
  apply run_inv in R2 as [ss' [cs' [_ [Fc' [Ag _]]]]].
  destruct (second_or (s_pre tag (concat bs) :: Lf) (s_pre tag (concat cs) :: Lg) _ _ (or_introl eq_refl) (or_introl eq_refl) E) as [X|C]; [|right; exact C].
  apply s_pre_inj in X. destruct (fields_second fs gs SK bs cs Lf Lg md md' Fb Fc Af Ag Hf Hg X) as [->|C]; [left; reflexivity|right].
  eapply second_mono; [| |exact C]; apply incl_tl, incl_refl.
Qed.

(** ** Games *)
Lemma rare_late n U {A B C} (first : prog A) (p : prog B) (chk : B -> prog C) j q r (P : Hasher -> Prop) :
  universe n U -> modest n j first -> modest n q p -> (forall x, modest n r (chk x)) ->
  (forall H, P H -> @second_in H (asked H first) (asked H (chk (exec H p)))) ->
  rare U P (N.of_nat j * N.of_nat (j - 1) + 2 * N.of_nat j * N.of_nat (q + r)) (2 ^ 257).
Proof.
  intros UU Mf M Mc S Bs NB HB.
  apply (c105_second n U A C first (fun _ => andthen p chk) j (q + r) UU Mf); [|exact NB|].
  - intros _. apply modest_andthen; assumption.
  - intros f If. destruct (HB f If) as [L PF]. split; [exact L|].
    eapply second_mono; [apply incl_refl| |exact (S _ PF)]. rewrite asked_andthen. apply incl_appr, incl_appr, incl_refl.
Qed.

(** A list of programs run one after the other *)
Fixpoint p_every {X A} (f : X -> prog A) (xs : list X) : prog unit :=
  match xs with [] => Done tt | x :: r => andthen (f x) (fun _ => p_every f r) end.
Lemma p_every_modest {X A} n q (f : X -> prog A) xs : (forall x, modest n q (f x)) -> modest n (length xs * q) (p_every f xs).
Proof.
  intros M. induction xs as [|x xs IH]; [exact I|]. cbn [p_every length Nat.mul]. apply modest_andthen; [apply M|intros _; exact IH].
Qed.
Lemma p_every_asked {X A} H (f : X -> prog A) xs x : In x xs -> incl (asked H (f x)) (asked H (p_every f xs)).
Proof.
  induction xs as [|y xs IH]; intros I; [destruct I|]. cbn [p_every]. rewrite asked_andthen. destruct I as [->|I]; [apply incl_appl, incl_refl|apply incl_appr, IH, I].
Qed.

Lemma c108_ids : forall n U q k Op tag (I : Hasher -> commit_encode Op) (fields : Op -> list field) (made : list Op) (adversary : prog Op)
  (strings : universe n U) (short : 162 <= n) (short_tag : length tag <= n) (few : modest n q adversary)
  (encoder : forall H, feeds_fields H tag fields (I H)),
  let K := N.of_nat (length made * (k + 2)) in
  rare U (fun H => let w := exec H adversary in
            small H n k tag (fields w) /\
            exists v md md' id, In v made /\ small H n k tag (fields v) /\ fields v <> fields w /\ Forall2 same_kind (fields v) (fields w) /\
              @commit_id H Op md (I H) v = Ret id /\ @commit_id H Op md' (I H) w = Ret id)
       (K * (K - 1) + 2 * K * N.of_nat (q + (k + 2))) (2 ^ 257).
Proof.
  intros n U q k Op tag I fields made adv UU N NT M ENC. cbv zeta.
  replace (N.of_nat (length made * (k + 2)) - 1)%N with (N.of_nat (length made * (k + 2) - 1)) by lia.
  apply (rare_late n U (p_every (fun v => p_id n k tag (fields v)) made) adv (fun w => p_id n k tag (fields w))); try assumption.
  - apply p_every_modest. intros v. apply p_id_modest; assumption.
  - intros w. apply p_id_modest; assumption.
  - intros H. set (w := exec H adv). intros ((W2 & cs & B2 & S2) & v & md & md' & id & Iv & (W1 & bs & B1 & S1) & D & Kd & E1 & E2).
    destruct (id_runs H md tag fields (I H) v id bs (ENC H) E1 B1) as [I1 [e R1]].
    destruct (id_runs H md' tag fields (I H) w id cs (ENC H) E2 B2) as [I2 [e' R2]].
    destruct (p_id_spec H n k tag (fields v) bs W1 B1 S1) as (_ & L & FH & IL).
    destruct (p_id_spec H n k tag (fields w) cs W2 B2 S2) as (_ & L' & FH' & IL').
    destruct (c108_extract H md md' tag (fields v) (fields w) e e' bs cs L L' R1 R2 Kd B1 B2 FH FH') as [X|X].
    + rewrite (c34_digest H md tag _ e bs R1 B1), (c34_digest H md' tag _ e' cs R2 B2). congruence.
    + contradiction.
    + eapply second_mono; [|exact IL'|exact X]. eapply incl_tran; [exact IL|]. apply (p_every_asked H (fun v => p_id n k tag (fields v)) made v Iv).
Qed.

Lemma c108_lists : forall n U q k (made : list (list bytes32)) (adversary : prog (list bytes32))
  (strings : universe n U) (short : 162 <= n) (few : modest n q adversary),
  let K := N.of_nat (length made * (2 * k + 2)) in
  rare U (fun H => let ys := exec H adversary in
            length ys <= k /\ length ys <> 1 /\
            exists xs r, In xs made /\ length xs <= k /\ length xs <> 1 /\ xs <> ys /\ @merklize H xs = Ret r /\ @merklize H ys = Ret r)
       (K * (K - 1) + 2 * K * N.of_nat (q + (2 * k + 2))) (2 ^ 257).
Proof.
  intros n U q k made adv UU N M. cbv zeta.
  replace (N.of_nat (length made * (2 * k + 2)) - 1)%N with (N.of_nat (length made * (2 * k + 2) - 1)) by lia.
  apply (rare_late n U (p_every (p_root k) made) adv (p_root k)); try assumption.
  - apply p_every_modest. intros xs. apply p_root_modest, N.
  - intros ys. apply p_root_modest, N.
  - intros H. set (ys := exec H adv). intros (Ly & Ny & xs & r & Ix & Lx & Nx & D & E1 & E2).
    pose proof (@hashed_tree H xs _ Nx (halves_splits (length xs) xs (le_n _))) as Rx.
    pose proof (@hashed_tree H ys _ Ny (halves_splits (length ys) ys (le_n _))) as Ry.
    assert (B1 : (N.of_nat (length xs) < 2 ^ 32)%N) by (apply (c22_limit H); eauto).
    assert (B2 : (N.of_nat (length ys) < 2 ^ 32)%N) by (apply (c22_limit H); eauto).
    apply (c23_balanced H _ _ B1) in E1. apply (c23_balanced H _ _ B2) in E2.
    destruct (merklize_second xs ys r _ _ B1 B2 E1 E2 Rx Ry) as [X|X]; [split; intros; contradiction|contradiction|].
    eapply second_mono; [| |exact X].
    + eapply incl_tran; [|apply (p_every_asked H (p_root k) made xs Ix)]. apply p_root_asked; assumption.
    + apply p_root_asked; assumption.
Qed.

Lemma c108_replaced : forall n U q k D Op Seal Pub PubId PubErr CliErr Issue Fail Warn Info Res tag
  (I : Hasher -> commit_encode Op) (fields : Op -> list field) (op : Op) pid (source : bytes32 -> multi_source * option N)
  (adversary : prog (Op * merkle_proof))
  (strings : universe n U) (short : 162 <= n) (short_tag : length tag <= n) (few : modest n q adversary)
  (encoder : forall H, feeds_fields H tag fields (I H)),
  let K := N.of_nat (k + 2 + (2 * 2 ^ D + 2)) in
  rare U (fun H => let '(op', pf') := exec H adversary in
            fields op <> fields op' /\ Forall2 same_kind (fields op) (fields op') /\
            small H n k tag (fields op) /\ small H n k tag (fields op') /\
            exists c, published H (I H) op pid source D c /\
              accepted_for Op Seal Pub PubId PubErr CliErr Issue Fail Warn Info Res H (I H) pid c op' pf')
       (K * (K - 1) + 2 * K * N.of_nat (q + (k + 37))) (2 ^ 257).
Proof.
  intros n U q k D Op Seal Pub PubId PubErr CliErr Issue Fail Warn Info Res tag I fields op pid source adv UU N NT M ENC. cbv zeta.
  replace (N.of_nat (k + 2 + (2 * 2 ^ D + 2)) - 1)%N with (N.of_nat (k + 2 + (2 * 2 ^ D + 2) - 1)) by lia.
  apply (rare_late n U (andthen (p_id n k tag (fields op)) (fun id => p_commit D (fst (source id)) (snd (source id)))) adv
    (fun '(op', pf') => andthen (p_id n k tag (fields op')) (fun i => p_check pf' pid i))); try assumption.
  - apply modest_andthen; [apply p_id_modest; assumption|]. intros id. apply p_commit_modest, N.
  - intros [op' pf']. replace (k + 37) with (k + 2 + 35) by lia.
    apply modest_andthen; [apply p_id_modest; assumption|intros i]. apply p_check_modest, N.
  - intros H. destruct (exec H adv) as [op' pf'].
    intros (Df & Kd & (W1 & bs & B1 & S1) & (W2 & cs & B2 & S2) & c & (md & id & t & I1 & Vs & Ip & Et & Lt & Ct) &
      medium & P & md' & res & self & items & r & s & pub & pub0 & v & CL & ONE & CA & AC & SP & Me0 & Ve).
    pose proof (valid_claims _ _ _ _ _ _ _ _ _ CA AC SP) as [V [Me [i' [I2 C1]]]].
    rewrite Me in Me0. injection Me0 as <-.
    unfold verify_seal_closing in C1. apply closing_ok in C1 as [_ [c' [X A]]].
    pose proof (ONE _ _ _ _ _ A Ve) as Q. subst c'.
    destruct (CL _ _ _ X) as [d2 Y].
    destruct (id_runs H md tag fields (I H) op id bs (ENC H) I1 B1) as [E1 [e R1]].
    destruct (id_runs H md' tag fields (I H) op' i' cs (ENC H) I2 B2) as [E2 [e' R2]].
    destruct (p_id_spec H n k tag (fields op) bs W1 B1 S1) as (X1 & L & FH & IL).
    destruct (p_id_spec H n k tag (fields op') cs W2 B2 S2) as (X2 & L' & FH' & IL').
    rewrite !asked_andthen, X1, X2, <- E1, <- E2.
    destruct (proj1 (c105_extract H md _ _ t c Vs Et Ct) d2 pf' pid i' V Y) as [[Im _]|Z].
    + assert (EI : id = i').
      { apply (om_In_get b32_ltb) in Ip; [|apply Vs]. apply (om_In_get b32_ltb) in Im; [|apply Vs]. congruence. }
      destruct (c108_extract H md md' tag (fields op) (fields op') e e' bs cs L L' R1 R2 Kd B1 B2 FH FH') as [Z|Z].
      * rewrite (c34_digest H md tag _ e bs R1 B1), (c34_digest H md' tag _ e' cs R2 B2). congruence.
      * contradiction.
      * eapply second_mono; [| |exact Z]; apply incl_appl; assumption.
    + eapply second_mono; [| |exact Z]; apply incl_appr; [apply (p_commit_asked H D _ _ t Et Lt)|apply (p_check_asked H d2 _ _ _ c Y)].
Qed.

Lemma c108_numbers : forall n U q k D Op Seal Pub PubId PubErr CliErr Issue Fail Warn Info Res tag
  (I : Hasher -> commit_encode Op) (fields : Op -> list field) (op : Op) pid (source : bytes32 -> multi_source * option N)
  (adversary : prog (Op * merkle_proof))
  (strings : universe n U) (short : 162 <= n) (short_tag : length tag <= n) (few : modest n q adversary)
  (encoder : forall H, feeds_fields H tag fields (I H))
  (work : (N.of_nat q <= 2 ^ 100)%N) (size : (N.of_nat k <= 2 ^ 16)%N) (depth : D <= 16),
  rare U (fun H => let '(op', pf') := exec H adversary in
            fields op <> fields op' /\ Forall2 same_kind (fields op) (fields op') /\
            small H n k tag (fields op) /\ small H n k tag (fields op') /\
            exists c, published H (I H) op pid source D c /\
              accepted_for Op Seal Pub PubId PubErr CliErr Issue Fail Warn Info Res H (I H) pid c op' pf')
       1 (2 ^ 137).
Proof.
  intros n U q k D Op Seal Pub PubId PubErr CliErr Issue Fail Warn Info Res tag I fields op pid source adv UU N NT M ENC W Kk HD.
  pose proof (c108_replaced n U q k D Op Seal Pub PubId PubErr CliErr Issue Fail Warn Info Res tag I fields op pid source adv UU N NT M ENC) as X.
  cbv zeta in X. refine (rare_weaken U _ _ _ _ _ _ _ X); [|vm_compute; discriminate]. clear X.
  set (K := N.of_nat (k + 2 + (2 * 2 ^ D + 2))).
  assert (P : (N.of_nat (2 ^ D) <= 2 ^ 16)%N).
  { rewrite Nat2N.inj_pow. apply N.pow_le_mono_r; [discriminate|]. lia. }
  assert (KB : (K <= 2 ^ 18)%N) by (unfold K; rewrite !Nat2N.inj_add, Nat2N.inj_mul; change (N.of_nat 2) with 2%N; change (2 ^ 18)%N with (2 ^ 16 + 2 * 2 ^ 16 + 2 ^ 16)%N; lia).
  assert (QB : (N.of_nat (q + (k + 37)) <= 2 ^ 100 + 2 ^ 16 + 37)%N) by (rewrite !Nat2N.inj_add; change (N.of_nat 37) with 37%N; lia).
  transitivity ((2 ^ 18 * 2 ^ 18 + 2 * 2 ^ 18 * (2 ^ 100 + 2 ^ 16 + 37)) * 2 ^ 137)%N; [|vm_compute; discriminate].
  apply N.mul_le_mono_r, N.add_le_mono; [apply N.mul_le_mono; lia|]. apply N.mul_le_mono; [lia|exact QB].
Qed.
