(** C107: values with one id, collections with one root and seals spent twice are rare. *)
From Verif Require Import Base BaseFacts OrdMap Digest Merkle MpcAtoms MpcTree MpcBlock Engine Seals Api Strict.
From Verif Require Import SpecHash SpecTree SpecMerkle SpecFull SpecValid SpecCommit SpecCodec SpecEngine SpecMisc SpecFind SpecQuery SpecEnd SpecGame SpecIdGame.
From Verif Require Import OrdMapFacts MerkleProofs HashFacts BlockInv EngineProofs MiscProofs TheoremsMpc TheoremsMisc TheoremsExt TheoremsMore TheoremsLocal TheoremsQuery TheoremsGame TheoremsEnd.
Local Open Scope nat_scope.

(** Computing the bytes of fields *)
Definition p_field (f : field) : prog (list byte) :=
  match f with
  | FSerialized T v => Done (enc (ty_codec T) v)
  | FOption T None => Done [x00]
  | FOption T (Some v) => Done (x01 :: enc (ty_codec T) v)
  | FHash t id => Done (b32 id)
  | FMerkle t [a] => Done (b32 a)
  | FMerkle t ls => andthen (p_root (length ls) ls) (fun r => Done (b32 r))
  | FConcealed t CT c => Done (enc CT c)
  | FList T min max l | FSet T min max l => Done (le (prefix_len max) (N.of_nat (length l)) ++ concat (map (enc (ty_codec T)) l))
  | FMap TK TV min max l =>
      Done (le (prefix_len max) (N.of_nat (length l)) ++
            concat (map (fun p => enc (ty_codec TK) (fst p) ++ enc (ty_codec TV) (snd p)) l))
  end.
Fixpoint p_fields (fs : list field) : prog (list byte) :=
  match fs with
  | [] => Done []
  | f :: r => andthen (p_field f) (fun b => andthen (p_fields r) (fun bs => Done (b ++ bs)))
  end.
Lemma p_root_exec H xs r : length xs <> 1 -> @merkle_root_of H xs r -> exec H (p_root (length xs) xs) = r.
Proof.
  intros N R. unfold p_root. rewrite Nat.leb_refl, (proj2 (Nat.eqb_neq _ _) N). cbn [andb negb exec].
  destruct R as [a|xs t N' S]; [cbn in N; lia|]. rewrite (splits_fun _ _ S _ (halves_splits (length xs) xs (le_n _))). apply p_mt_exec.
Qed.
Lemma p_field_exec H f b : @feeds H f b -> exec H (p_field f) = b.
Proof.
  destruct f as [A T v|A T [v|]|t id|t ls|C t CT c|A T mi ma l|A T mi ma l|K V TK TV mi ma l]; cbn [feeds p_field exec]; try (intros ->; reflexivity).
  - intros (r & R & ->). destruct ls as [|a [|b' ls]].
    + rewrite exec_andthen. cbn [exec]. f_equal. apply p_root_exec; [discriminate|exact R].
    + cbn [exec]. inversion R; subst; [reflexivity|]. cbn in *. lia.
    + rewrite exec_andthen. cbn [exec]. f_equal. apply p_root_exec; [discriminate|exact R].
  - intros (k & P & ->). rewrite <- (prefix_size_fun _ _ P). reflexivity.
  - intros (k & P & ->). rewrite <- (prefix_size_fun _ _ P). reflexivity.
  - intros (k & P & ->). rewrite <- (prefix_size_fun _ _ P). reflexivity.
Qed.
Lemma p_fields_exec H fs bss : Forall2 (@feeds H) fs bss -> exec H (p_fields fs) = concat bss.
Proof.
  induction 1 as [|f b fs bs F Fs IH]; [reflexivity|]. cbn [p_fields concat]. rewrite !exec_andthen. cbn [exec].
  rewrite IH, (p_field_exec H f b F). reflexivity.
Qed.
Lemma root_hashed_ex H xs : exists L, @root_hashed H xs L.
Proof.
  destruct (Nat.eq_dec (length xs) 1) as [E|N].
  - destruct xs as [|a [|b xs]]; try discriminate. eexists. apply hashed_single.
  - eexists. apply (@hashed_tree H xs _ N (halves_splits (length xs) xs (le_n _))).
Qed.
Lemma p_fields_asked H fs : exists L, @fields_hashed H fs L /\ incl L (asked H (p_fields fs)).
Proof.
  induction fs as [|f fs [L [FH IL]]]; [exists []; split; [constructor|intros s []]|].
  cbn [p_fields]. rewrite asked_andthen, asked_andthen. cbn [asked]. rewrite app_nil_r.
  destruct f as [A T v|A T v|t id|t ls|C t CT c|A T mi ma l|A T mi ma l|K V TK TV mi ma l];
    try (exists L; split; [apply fh_other; [discriminate|exact FH]|apply incl_appr, IL]).
  destruct (root_hashed_ex H ls) as [L1 R]. exists (L1 ++ L). split; [apply fh_merkle; assumption|].
  apply incl_app; [apply incl_appl|apply incl_appr, IL].
  destruct ls as [|a [|b ls]]; cbn [p_field].
  - rewrite asked_andthen. apply incl_appl, p_root_asked; [apply le_n|discriminate|exact R].
  - inversion R; subst; [intros s []|]. cbn in *. lia.
  - rewrite asked_andthen. apply incl_appl, p_root_asked; [apply le_n|discriminate|exact R].
Qed.
Lemma p_field_modest n f fs : 162 <= n -> forall q, modest n q (p_fields fs) -> modest n (hash_work [f] + q) (p_fields (f :: fs)).
Proof.
  intros N q M. cbn [p_fields]. apply (modest_andthen n _ _ (hash_work [f]) q).
  - destruct f as [A T v|A T [v|]|t id|t ls|C t CT c|A T mi ma l|A T mi ma l|K V TK TV mi ma l]; try exact I.
    cbn [hash_work]. destruct ls as [|a [|b ls]]; [|exact I|]; cbn [p_field];
      (apply (modest_andthen n _ _ _ 0); [apply p_root_modest, N|intros r; exact I]).
  - intros b. apply (modest_mono n _ (q + 0)); [lia|]. apply (modest_andthen n _ _ q 0); [exact M|intros bs; exact I].
Qed.
Lemma hash_work_cons f fs : hash_work (f :: fs) = hash_work [f] + hash_work fs.
Proof. destruct f; cbn [hash_work]; lia. Qed.
Lemma p_fields_modest n fs : 162 <= n -> modest n (hash_work fs) (p_fields fs).
Proof.
  intros N. induction fs as [|f fs IH]; [exact I|]. rewrite hash_work_cons. apply p_field_modest; assumption.
Qed.

(** The id of a value with these fields; values which are too large are not hashed. *)
Definition p_id (n k : nat) (tag : list byte) (fs : list field) : prog bytes32 :=
  if hash_work fs <=? k
  then Ask tag (fun th => andthen (p_fields fs) (fun bs =>
         let s := @s_pre (always th) tag bs in if length s <=? n then Ask s Done else Done (b32_fill x00)))
  else Done (b32_fill x00).
Lemma p_id_modest n k tag fs : 162 <= n -> length tag <= n -> modest n (k + 2) (p_id n k tag fs).
Proof.
  intros N T. unfold p_id. destruct (Nat.leb_spec (hash_work fs) k) as [L|]; [|exact I].
  replace (k + 2) with (S (k + 1)) by lia. split; [exact T|]. intros th.
  apply (modest_andthen n _ _ k 1); [apply (modest_mono n _ (hash_work fs)); [exact L|apply p_fields_modest, N]|].
  intros bs. cbv zeta. destruct (Nat.leb_spec (length (@s_pre (always th) tag bs)) n) as [B|]; [|exact I]. cbn. split; [exact B|intros; exact I].
Qed.
Lemma s_pre_always H tag bs : @s_pre (always (H tag)) tag bs = @s_pre H tag bs.
Proof. reflexivity. Qed.
Lemma p_id_spec H n k tag fs bs : hash_work fs <= k -> Forall2 (@feeds H) fs bs -> length (@s_pre H tag (concat bs)) <= n ->
  exec H (p_id n k tag fs) = @HASH H (@s_pre H tag (concat bs)) /\
  exists L, @fields_hashed H fs L /\ incl (@s_pre H tag (concat bs) :: L) (asked H (p_id n k tag fs)).
Proof.
  intros W F B. unfold p_id. rewrite (proj2 (Nat.leb_le _ _) W). cbn [exec asked].
  rewrite exec_andthen, asked_andthen. cbv zeta. rewrite (p_fields_exec H fs bs F), s_pre_always, (proj2 (Nat.leb_le _ _) B). cbn [exec asked].
  split; [reflexivity|]. destruct (p_fields_asked H fs) as (L & FH & IL). exists L. split; [exact FH|].
  intros s [<-|I]; right; apply in_or_app; [right; left; reflexivity|left; apply IL, I].
Qed.
Lemma id_runs (H : Hasher) {Op} md tag fields (I : commit_encode Op) v id bs : feeds_fields H tag fields I ->
  commit_id md I v = Ret id -> Forall2 feeds (fields v) bs ->
  id = HASH (s_pre tag (concat bs)) /\ exists e, run md (fields v) (engine_new tag) = Ret e.
Proof.
  intros [<- ENC] E B.
  assert (R : exists e, run md (fields v) (engine_new (ce_tag I)) = Ret e).
  { unfold commit_id, commit in E. rewrite ENC in E. destruct (run md (fields v) (engine_new (ce_tag I))) as [e|]; [eauto|discriminate]. }
  split; [|exact R]. destruct R as [e R]. rewrite (c34_commit_id H Op md I v (fields v) bs e (ENC md v) R B) in E. congruence.
Qed.

Lemma c107_ids : forall n U q k Op tag (I : Hasher -> commit_encode Op) (fields : Op -> list field) (adversary : prog (Op * Op))
  (strings : universe n U) (short : 162 <= n) (short_tag : length tag <= n) (few : modest n q adversary)
  (encoder : forall H, feeds_fields H tag fields (I H)),
  rare U (fun H => let '(v, w) := exec H adversary in
            fields v <> fields w /\ Forall2 same_kind (fields v) (fields w) /\
            small H n k tag (fields v) /\ small H n k tag (fields w) /\
            exists md md' id, @commit_id H Op md (I H) v = Ret id /\ @commit_id H Op md' (I H) w = Ret id)
       (N.of_nat (q + (2 * k + 4)) * N.of_nat (q + (2 * k + 3))) (2 ^ 257).
Proof.
  intros n U q k Op tag I fields adv UU N NT M ENC. replace (q + (2 * k + 3)) with (q + (2 * k + 4) - 1) by lia.
  apply (rare_game n U adv (fun '(v, w) => andthen (p_id n k tag (fields v)) (fun _ => p_id n k tag (fields w))) q (2 * k + 4)); try assumption.
  - intros [v w]. replace (2 * k + 4) with ((k + 2) + (k + 2)) by lia. apply modest_andthen; [|intros _]; apply p_id_modest; assumption.
  - intros H. destruct (exec H adv) as [v w]. intros (D & K & (W1 & bs & B1 & S1) & (W2 & cs & B2 & S2) & md & md' & id & E1 & E2).
    destruct (id_runs H md tag fields (I H) v id bs (ENC H) E1 B1) as [I1 [e R1]].
    destruct (id_runs H md' tag fields (I H) w id cs (ENC H) E2 B2) as [I2 [e' R2]].
    destruct (p_id_spec H n k tag (fields v) bs W1 B1 S1) as (_ & L & FH & IL).
    destruct (p_id_spec H n k tag (fields w) cs W2 B2 S2) as (_ & L' & FH' & IL').
    destruct (c35_binding H md md' tag (fields v) (fields w) e e' bs cs L L' R1 R2 K B1 B2 FH FH') as [X|X].
    + rewrite (c34_digest H md tag _ e bs R1 B1), (c34_digest H md' tag _ e' cs R2 B2). congruence.
    + contradiction.
    + eapply collision_incl; [|exact X]. eapply incl_tran; [|apply both_asked]. apply incl_app; [apply incl_appl, IL|apply incl_appr, IL'].
Qed.

Lemma c107_double_spend : forall n U q k Op Seal Pub PubId PubErr CliErr Issue Fail Warn Info Res tag
  (I : Hasher -> commit_encode Op) (fields : Op -> list field)
  (adversary : prog (bytes32 * (Op * merkle_proof) * (Op * merkle_proof)))
  (strings : universe n U) (short : 162 <= n) (short_tag : length tag <= n) (few : modest n q adversary)
  (encoder : forall H, feeds_fields H tag fields (I H)),
  rare U (fun H => let '(pid, (op, pf), (op', pf')) := exec H adversary in
            (fields op <> fields op' \/ pf <> pf') /\ Forall2 same_kind (fields op) (fields op') /\
            small H n k tag (fields op) /\ small H n k tag (fields op') /\
            spent_twice Op Seal Pub PubId PubErr CliErr Issue Fail Warn Info Res H (I H) pid op pf op' pf')
       (N.of_nat (q + (2 * k + 74)) * N.of_nat (q + (2 * k + 73))) (2 ^ 257).
Proof.
  intros n U q k Op Seal Pub PubId PubErr CliErr Issue Fail Warn Info Res tag I fields adv UU N NT M ENC.
  replace (q + (2 * k + 73)) with (q + (2 * k + 74) - 1) by lia.
  apply (rare_game n U adv (fun '(pid, (op, pf), (op', pf')) =>
    andthen (p_id n k tag (fields op)) (fun i => andthen (p_id n k tag (fields op')) (fun i' =>
      andthen (p_check pf pid i) (fun _ => p_check pf' pid i')))) q (2 * k + 74)); try assumption.
  - intros [[pid [op pf]] [op' pf']]. replace (2 * k + 74) with ((k + 2) + ((k + 2) + (35 + 35))) by lia.
    apply modest_andthen; [apply p_id_modest; assumption|intros i]. apply modest_andthen; [apply p_id_modest; assumption|intros i'].
    apply modest_andthen; [|intros _]; apply p_check_modest, N.
  - intros H. destruct (exec H adv) as [[pid [op pf]] [op' pf']].
    intros (D & K & (W1 & bs & B1 & S1) & (W2 & cs & B2 & S2) & medium & P & md & md' & res & res' & self & self' & items & items' & r & r' & s & pub & pub' & CL & ONE & CA & CA' & AC & AC' & SP & SP').
    pose proof (valid_claims _ _ _ _ _ _ _ _ _ CA AC SP) as [V [Me [i [I1 C1]]]].
    pose proof (valid_claims _ _ _ _ _ _ _ _ _ CA' AC' SP') as [V' [Me' [i' [I1' C1']]]].
    rewrite Me in Me'. injection Me' as <-.
    unfold verify_seal_closing in C1, C1'. apply closing_ok in C1 as [_ [c [X A]]]. apply closing_ok in C1' as [_ [c' [X' A']]].
    pose proof (ONE _ _ _ _ _ A A') as Q. subst c'.
    destruct (CL _ _ _ X) as [d1 Y]. destruct (CL _ _ _ X') as [d2 Y'].
    destruct (id_runs H md tag fields (I H) op i bs (ENC H) I1 B1) as [E1 [e R1]].
    destruct (id_runs H md' tag fields (I H) op' i' cs (ENC H) I1' B2) as [E2 [e' R2]].
    destruct (p_id_spec H n k tag (fields op) bs W1 B1 S1) as (X1 & L & FH & IL).
    destruct (p_id_spec H n k tag (fields op') cs W2 B2 S2) as (X2 & L' & FH' & IL').
    rewrite asked_andthen, X1, asked_andthen, X2, asked_andthen, <- E1, <- E2.
    destruct (c60_one_proof H d1 d2 pf pf' pid i i' c V V' Y Y') as [[EI EP]|CC].
    2:{ eapply collision_incl; [|exact CC]. apply incl_appr, incl_appr.
        apply incl_app; [apply incl_appl, (p_check_asked H d1 _ _ _ c Y)|apply incl_appr, (p_check_asked H d2 _ _ _ c Y')]. }
    destruct (c35_binding H md md' tag (fields op) (fields op') e e' bs cs L L' R1 R2 K B1 B2 FH FH') as [Z|Z].
    + rewrite (c34_digest H md tag _ e bs R1 B1), (c34_digest H md' tag _ e' cs R2 B2). congruence.
    + destruct D as [D|D]; contradiction.
    + eapply collision_incl; [|exact Z]. apply incl_app; [apply incl_appl, IL|apply incl_appr, incl_appl, IL'].
Qed.

(** Collections of values with ids of their own *)
Fixpoint p_leaves {T} (n : nat) (th : bytes32) (tag : list byte) (encode : T -> list byte) (xs : list T) : prog (list bytes32) :=
  match xs with
  | [] => Done []
  | x :: r => let s := @s_pre (always th) tag (encode x) in
      andthen (if length s <=? n then Ask s Done else Done (b32_fill x00)) (fun i => andthen (p_leaves n th tag encode r) (fun l => Done (i :: l)))
  end.
Definition p_coll {T} (n k : nat) (tag : list byte) (encode : T -> list byte) (xs : list T) : prog bytes32 :=
  if length xs <=? k then Ask tag (fun th => andthen (p_leaves n th tag encode xs) (p_root k)) else Done (b32_fill x00).
Lemma p_leaves_modest {T} n th tag (encode : T -> list byte) xs : modest n (length xs) (p_leaves n th tag encode xs).
Proof.
  induction xs as [|x xs IH]; [exact I|]. cbn [p_leaves length]. cbv zeta. change (S (length xs)) with (1 + length xs). apply modest_andthen.
  - destruct (Nat.leb_spec (length (@s_pre (always th) tag (encode x))) n) as [B|]; [|exact I]. cbn. split; [exact B|intros; exact I].
  - intros i. apply (modest_mono n _ (length xs + 0)); [lia|]. apply modest_andthen; [exact IH|intros l; exact I].
Qed.
Lemma p_coll_modest {T} n k tag (encode : T -> list byte) xs : 162 <= n -> length tag <= n -> modest n (3 * k + 3) (p_coll n k tag encode xs).
Proof.
  intros N NT. unfold p_coll. destruct (Nat.leb_spec (length xs) k) as [L|]; [|exact I].
  replace (3 * k + 3) with (S (k + (2 * k + 2))) by lia. split; [exact NT|]. intros th.
  apply modest_andthen; [apply (modest_mono n _ (length xs) k L), p_leaves_modest|]. intros l. apply p_root_modest, N.
Qed.
Lemma p_leaves_spec {T} H n tag (encode : T -> list byte) xs :
  Forall (fun x => length (@s_pre H tag (encode x)) <= n) xs ->
  exec H (p_leaves n (H tag) tag encode xs) = map (fun x => @HASH H (@s_pre H tag (encode x))) xs /\
  asked H (p_leaves n (H tag) tag encode xs) = map (fun x => @s_pre H tag (encode x)) xs.
Proof.
  induction 1 as [|x xs B F [IH1 IH2]]; [split; reflexivity|]. cbn [p_leaves map]. cbv zeta.
  rewrite s_pre_always, (proj2 (Nat.leb_le _ _) B). cbn [andthen exec asked]. rewrite exec_andthen, asked_andthen. cbn [exec asked].
  rewrite IH1, IH2, app_nil_r. split; reflexivity.
Qed.
Lemma p_coll_asked {T} H n k tag (encode : T -> list byte) xs : length xs <= k ->
  Forall (fun x => length (@s_pre H tag (encode x)) <= n) xs ->
  exists L, @root_hashed H (map (fun x => @HASH H (@s_pre H tag (encode x))) xs) L /\
    incl (tag :: map (fun x => @s_pre H tag (encode x)) xs ++ L) (asked H (p_coll n k tag encode xs)).
Proof.
  intros LK F. destruct (p_leaves_spec H n tag encode xs F) as [E A].
  destruct (root_hashed_ex H (map (fun x => @HASH H (@s_pre H tag (encode x))) xs)) as [L R]. exists L. split; [exact R|].
  unfold p_coll. rewrite (proj2 (Nat.leb_le _ _) LK). cbn [asked]. rewrite asked_andthen, E, A.
  apply incl_cons; [left; reflexivity|]. apply incl_tl, incl_app; [apply incl_appl, incl_refl|apply incl_appr].
  destruct (Nat.eq_dec (length xs) 1) as [L1|L1].
  - destruct xs as [|x [|y xs]]; try discriminate. cbn [map] in R. inversion R; subst; [intros s []|]. cbn in *. lia.
  - apply p_root_asked; [rewrite map_length; exact LK|rewrite map_length; exact L1|exact R].
Qed.
Lemma c107_vectors : forall n U q k T tag (encode : T -> list byte) (adversary : prog (list T * list T))
  (strings : universe n U) (short : 162 <= n) (short_tag : length tag <= n) (few : modest n q adversary)
  (injective : forall a b, encode a = encode b -> a = b) (own_tag : tag <> s_node_tag),
  rare U (fun H => let '(xs, ys) := exec H adversary in
            let id x := @HASH H (@s_pre H tag (encode x)) in
            xs <> ys /\ length xs <= k /\ length ys <= k /\ (forall x, In x (xs ++ ys) -> length (encode x) + 64 <= n) /\
            exists r, @merklize_leaves H T id (vec_leaves xs) = Ret r /\ @merklize_leaves H T id (vec_leaves ys) = Ret r)
       (N.of_nat (q + (6 * k + 6)) * N.of_nat (q + (6 * k + 5))) (2 ^ 257).
Proof.
  intros n U q k T tag en adv UU N NT M INJ OWN. replace (q + (6 * k + 5)) with (q + (6 * k + 6) - 1) by lia.
  apply (rare_game n U adv (fun '(xs, ys) => andthen (p_coll n k tag en xs) (fun _ => p_coll n k tag en ys)) q (6 * k + 6)); try assumption.
  - intros [xs ys]. replace (6 * k + 6) with ((3 * k + 3) + (3 * k + 3)) by lia. apply modest_andthen; [|intros _]; apply p_coll_modest; assumption.
  - intros H. destruct (exec H adv) as [xs ys]. intros (D & Lx & Ly & S & r & R1 & R2).
    assert (F : forall x, In x (xs ++ ys) -> length (@s_pre H tag (en x)) <= n).
    { intros x Ix. specialize (S x Ix). unfold s_pre. rewrite !app_length, !b32_length. lia. }
    destruct (p_coll_asked H n k tag en xs Lx) as (L & RH & IL); [apply Forall_forall; intros x Ix; apply F, in_or_app; left; exact Ix|].
    destruct (p_coll_asked H n k tag en ys Ly) as (L' & RH' & IL'); [apply Forall_forall; intros x Ix; apply F, in_or_app; right; exact Ix|].
    destruct (c77_vector H T tag en xs ys r L L' INJ OWN R1 R2 RH RH') as [Q|K]; [contradiction|].
    eapply collision_incl; [|exact K]. eapply incl_tran; [|apply both_asked]. intros s [<-|Is].
    + apply in_or_app; left. apply IL. left. reflexivity.
    + rewrite map_app, !in_app_iff in Is. apply in_or_app. destruct Is as [[Is|Is]|[Is|Is]].
      * left. apply IL. right. apply in_or_app. left. exact Is.
      * right. apply IL'. right. apply in_or_app. left. exact Is.
      * left. apply IL. right. apply in_or_app. right. exact Is.
      * right. apply IL'. right. apply in_or_app. right. exact Is.
Qed.
Lemma rare_sub U (P Q : Hasher -> Prop) num den : (forall H, P H -> Q H) -> rare U Q num den -> rare U P num den.
Proof. intros S R B NB HB. apply R; [exact NB|]. intros f If. destruct (HB f If) as [L X]. split; [exact L|apply S, X]. Qed.
Lemma c107_sets : forall n U q k T (ltb : T -> T -> bool) tag (encode : T -> list byte) (adversary : prog (list T * list T))
  (strings : universe n U) (short : 162 <= n) (short_tag : length tag <= n) (few : modest n q adversary)
  (order : StrictOrd ltb) (injective : forall a b, encode a = encode b -> a = b) (own_tag : tag <> s_node_tag),
  rare U (fun H => let '(xs, ys) := exec H adversary in
            let id x := @HASH H (@s_pre H tag (encode x)) in
            ~ (forall x, In x xs <-> In x ys) /\ length xs <= k /\ length ys <= k /\
            (forall x, In x (xs ++ ys) -> length (encode x) + 64 <= n) /\
            exists r, @merklize_leaves H T id (set_leaves (set_of ltb xs)) = Ret r /\
                      @merklize_leaves H T id (set_leaves (set_of ltb ys)) = Ret r)
       (N.of_nat (q + (6 * k + 6)) * N.of_nat (q + (6 * k + 5))) (2 ^ 257).
Proof.
  intros n U q k T ltb tag en adv UU N NT M ORD INJ OWN.
  assert (M' : modest n q (andthen adv (fun '(xs, ys) => Done (set_of ltb xs, set_of ltb ys)))).
  { apply (modest_mono n _ (q + 0)); [lia|]. apply modest_andthen; [exact M|]. intros [xs ys]. exact I. }
  pose proof (c107_vectors n U q k T tag en _ UU N NT M' INJ OWN) as X. refine (rare_sub U _ _ _ _ _ X). clear X.
  intros H. rewrite exec_andthen. destruct (exec H adv) as [xs ys]. cbn [exec]. cbv zeta. intros (D & Lx & Ly & S & r & R1 & R2).
  pose proof (os_of_list_length ltb xs) as L1. pose proof (os_of_list_length ltb ys) as L2. unfold set_of in *.
  split; [|split; [lia|split; [lia|split]]].
  - intros Q. apply D. intros x. rewrite <- (os_of_list_In ltb xs x), <- (os_of_list_In ltb ys x), Q. reflexivity.
  - intros x Ix. apply S. rewrite in_app_iff in *. rewrite (os_of_list_In ltb xs x), (os_of_list_In ltb ys x) in Ix. exact Ix.
  - exists r. split; assumption.
Qed.

Lemma rare_weaken U (P : Hasher -> Prop) num den num' den' :
  (num * den' <= num' * den)%N -> den <> 0%N -> rare U P num den -> rare U P num' den'.
Proof.
  intros C D R B NB HB. specialize (R B NB HB). set (T := (2 ^ (256 * N.of_nat (length U)))%N) in *.
  apply (N.mul_le_mono_pos_l _ _ den); [lia|]. nia.
Qed.
Lemma c107_numbers : forall n U q k Op Seal Pub PubId PubErr CliErr Issue Fail Warn Info Res tag
  (I : Hasher -> commit_encode Op) (fields : Op -> list field)
  (adversary : prog (bytes32 * (Op * merkle_proof) * (Op * merkle_proof)))
  (strings : universe n U) (short : 162 <= n) (short_tag : length tag <= n) (few : modest n q adversary)
  (encoder : forall H, feeds_fields H tag fields (I H))
  (work : (N.of_nat q <= 2 ^ 100)%N) (size : (N.of_nat k <= 2 ^ 64)%N),
  rare U (fun H => let '(pid, (op, pf), (op', pf')) := exec H adversary in
            fields op <> fields op' /\ Forall2 same_kind (fields op) (fields op') /\
            small H n k tag (fields op) /\ small H n k tag (fields op') /\
            spent_twice Op Seal Pub PubId PubErr CliErr Issue Fail Warn Info Res H (I H) pid op pf op' pf')
       1 (2 ^ 56).
Proof.
  intros n U q k Op Seal Pub PubId PubErr CliErr Issue Fail Warn Info Res tag I fields adv UU N NT M ENC W K.
  pose proof (c107_double_spend n U q k Op Seal Pub PubId PubErr CliErr Issue Fail Warn Info Res tag I fields adv UU N NT M ENC) as X.
  apply (rare_weaken U _ (N.of_nat (q + (2 * k + 74)) * N.of_nat (q + (2 * k + 73))) (2 ^ 257)); [| |refine (rare_sub U _ _ _ _ _ X)]; clear X.
  - rewrite !Nat2N.inj_add, Nat2N.inj_mul. change (N.of_nat 2) with 2%N. change (N.of_nat 74) with 74%N. change (N.of_nat 73) with 73%N.
    transitivity ((2 ^ 100 + (2 * 2 ^ 64 + 74)) * (2 ^ 100 + (2 * 2 ^ 64 + 73)) * 2 ^ 56)%N; [|vm_compute; discriminate].
    apply N.mul_le_mono_r. apply N.mul_le_mono; lia.
  - vm_compute. discriminate.
  - intros H. destruct (exec H adv) as [[pid [op pf]] [op' pf']]. tauto.
Qed.
