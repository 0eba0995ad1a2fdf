(** C109: histories sent as bytes over a channel which nobody controls. *)
From Verif Require Import Base BaseFacts OrdMap Digest Merkle MpcAtoms MpcTree MpcBlock Engine Seals Api Strict.
From Verif Require Import SpecHash SpecTree SpecMerkle SpecFull SpecValid SpecCommit SpecCodec SpecEngine SpecMisc SpecFind SpecQuery SpecEnd SpecGame SpecTarget SpecIdGame SpecTransfer.
From Verif Require Import OrdMapFacts MerkleProofs HashFacts BlockInv StrictProofs CodecProofs EngineProofs MiscProofs TheoremsMpc TheoremsMerkle TheoremsMisc TheoremsExt TheoremsMore TheoremsLocal TheoremsQuery TheoremsGame TheoremsEnd TheoremsTarget TheoremsIdGame TheoremsLate.
Local Open Scope nat_scope.

Section Codec.
Context {Op Seal Pub : Type} (cs : codec Seal) (co : codec Op) (cp : codec Pub) (vs : Seal -> Prop) (vo : Op -> Prop) (vp : Pub -> Prop)
  (Ls : lawful cs vs) (Lo : lawful co vo) (Lp : lawful cp vp).

Definition claim_ok (x : claim Op Seal Pub) : Prop := (vs (fst (fst x)) /\ vo (snd (fst x))) /\ (vp (fst (snd x)) /\ valid_proof (snd (snd x))).
Lemma consignment_lawful : lawful (c_consignment cs co cp)
  (fun xs => (N.of_nat (length xs) <= 65535)%N /\ Forall claim_ok xs).
Proof.
  assert (L : lawful (c_pair (c_pair cs co) (c_seal_witness cp c_merkle_proof)) claim_ok).
  { exact (c_pair_lawful _ _ _ _ (c_pair_lawful _ _ _ _ Ls Lo) (c76_lawful _ _ _ _ _ _ Lp c_merkle_proof_lawful)). }
  pose proof (c_vec_lawful 2 0 0xFFFF _ _ eq_refl L) as X. unfold c_consignment. eapply lawful_iff; [exact X|].
  intros xs. unfold vec_valid. split; [intros [[_ A] B]; split; assumption|intros [A B]; split; [split; [lia|exact A]|exact B]].
Qed.
Lemma received {Issue Res Fail Warn Info} (resolve : Res -> claim Op Seal Pub -> result unit Issue * Res) r bs v :
  receive cs co cp Fail Warn Info resolve r bs = Some v ->
  exists xs, dec (c_consignment cs co cp) bs = Some (xs, []) /\ bs = enc (c_consignment cs co cp) xs /\
    (N.of_nat (length xs) <= 65535)%N /\ Forall claim_ok xs /\
    v = status_validity (fst (client_side_validate (Fail := Fail) (Warn := Warn) (Info := Info) resolve (ClientData [] status_new) (history xs) r)).
Proof.
  unfold receive. destruct (dec (c_consignment cs co cp) bs) as [[xs [|b rest]]|] eqn:E; try discriminate. intros Q. injection Q as <-.
  destruct (law_can _ _ consignment_lawful _ _ _ E) as [X [A B]]. rewrite app_nil_r in X. exists xs. auto.
Qed.
End Codec.

Lemma history_claims {Op Seal Pub Issue Fail Warn Info} (xs : list (claim Op Seal Pub)) x :
  claims (Issue := Issue) (Fail := Fail) (Warn := Warn) (Info := Info) (history xs) x <-> In x xs.
Proof.
  unfold claims, history. split.
  - intros (it & I & J). apply in_map_iff in I as (y & <- & I). destruct J as [->|[]]. exact I.
  - intros I. exists (ClientData [x] status_new). split; [apply in_map_iff; exists x; auto|left; reflexivity].
Qed.

Lemma c109_delivered : forall (H : Hasher) Op Seal Pub PubId PubErr CliErr Issue Fail Warn Info Res
    (cs : codec Seal) (co : codec Op) (cp : codec Pub) vs vo vp
    (medium : Seal -> option Pub) (P : seal_protocol Seal bytes32 Pub merkle_proof bytes32 PubId PubErr CliErr)
    md pid (I : commit_encode Op) source D (resolve : Res -> claim Op Seal Pub -> result unit Issue * Res) r sent
  (seals : lawful cs vs) (ops : lawful co vo) (pubs : lawful cp vp)
  (client : forall w x c, convolve md w pid x = Ret (Ok c) -> sl_convolve P w x = Ok c)
  (capable : trusts_closed medium P md I resolve)
  (can_write : writable vs vo vp sent) (honest : forall x, In x sent -> transferred H medium P md I pid source D x),
  receive cs co cp Fail Warn Info resolve r (enc (c_consignment cs co cp) sent) = Some Valid.
Proof.
  intros H Op Seal Pub PubId PubErr CliErr Issue Fail Warn Info Res cs co cp vs vo vp medium P md pid I source D resolve r sent Ls Lo Lp CL CA [Ln W] HO.
  assert (V : Forall (claim_ok vs vo vp) sent).
  { apply Forall_forall. intros [[s op] [pub pf]] J. destruct (W _ _ _ _ J) as (A & B & C).
    destruct (HO _ J) as (id & t & c & Q1 & V & M & T & _ & TI & X & _).
    destruct (c02_every_message_has_proof H md _ _ t pid id V T M) as [pf' [c' [X' [_ [_ Y]]]]].
    assert (pf = pf') by congruence. subst pf'. split; split; assumption. }
  unfold receive. pose proof (law_rt _ _ (consignment_lawful cs co cp vs vo vp Ls Lo Lp) sent [] (conj Ln V)) as R.
  rewrite app_nil_r in R. rewrite R. f_equal.
  apply (c82_honest H Op Seal Pub PubId PubErr CliErr medium P md pid I Issue Fail Warn Info Res resolve); try assumption.
  - reflexivity.
  - intros it J. apply in_map_iff in J as (x & <- & _). reflexivity.
  - intros s op pub pf J. apply history_claims in J. destruct (HO _ J) as (id & t & c & Q1 & Vs & M & T & _ & TI & X & Me & A & N).
    exists id, (fst (source s id)), (snd (source s id)), t, c. auto 12.
Qed.

Lemma c109_exact : forall Op Seal Pub Issue Fail Warn Info Res (cs : codec Seal) (co : codec Op) (cp : codec Pub) vs vo vp
    (resolve : Res -> claim Op Seal Pub -> result unit Issue * Res) r bs v
  (seals : lawful cs vs) (ops : lawful co vo) (pubs : lawful cp vp)
  (read : receive cs co cp Fail Warn Info resolve r bs = Some v),
  (exists xs, bs = enc (c_consignment cs co cp) xs /\ writable vs vo vp xs) /\
  (forall more, more <> [] -> receive cs co cp Fail Warn Info resolve r (bs ++ more) = None) /\
  (forall part rest, bs = part ++ rest -> rest <> [] -> receive cs co cp Fail Warn Info resolve r part = None).
Proof.
  intros Op Seal Pub Issue Fail Warn Info Res cs co cp vs vo vp resolve r bs v Ls Lo Lp R.
  pose proof (consignment_lawful cs co cp vs vo vp Ls Lo Lp) as L.
  destruct (received cs co cp vs vo vp Ls Lo Lp resolve r bs v R) as (xs & _ & E & Ln & V & _).
  split; [|split].
  - exists xs. split; [exact E|split; [exact Ln|]]. intros s op pub pf J. rewrite Forall_forall in V. destruct (V _ J) as [[A B] [C _]]. auto.
  - intros more N. unfold receive. rewrite E, (law_rt _ _ L xs more (conj Ln V)). destruct more; [contradiction|reflexivity].
  - intros part rest E' N. destruct (receive cs co cp Fail Warn Info resolve r part) as [v'|] eqn:R'; [|reflexivity].
    destruct (received cs co cp vs vo vp Ls Lo Lp resolve r part v' R') as (ys & _ & Ey & Ly & Vy & _).
    rewrite E', Ey in E. rewrite <- (app_nil_r (enc (c_consignment cs co cp) xs)) in E.
    destruct (lawful_inj _ _ _ _ _ _ L (conj Ly Vy) (conj Ln V) E) as [_ Q]. contradiction.
Qed.

Lemma c109_same : forall (H : Hasher) Op Seal Pub PubId PubErr CliErr Issue Fail Warn Info Res Issue' Fail' Warn' Info' Res'
    (cs : codec Seal) (co : codec Op) (cp : codec Pub) vs vo vp
    (medium : Seal -> option Pub) (P : seal_protocol Seal bytes32 Pub merkle_proof bytes32 PubId PubErr CliErr)
    md md' pid (I : commit_encode Op) (fields : Op -> list field) (bytes hashed : Op -> list (list byte))
    (resolve : Res -> claim Op Seal Pub -> result unit Issue * Res) r (resolve' : Res' -> claim Op Seal Pub -> result unit Issue' * Res') r'
    bs bs' xs xs'
  (seals : lawful cs vs) (ops : lawful co vo) (pubs : lawful cp vp)
  (client : forall w x c, sl_convolve P w x = Ok c -> exists d, convolve d w pid x = Ret (Ok c))
  (one_commitment : forall pub p q v w, sl_verify_commitment P pub p = Ok v -> sl_verify_commitment P pub q = Ok w -> p = q)
  (encoder : forall d v, ce_encode I d v (engine_new (ce_tag I)) = run d (fields v) (engine_new (ce_tag I)))
  (regular : forall op op', vo op -> vo op' -> Forall2 same_kind (fields op) (fields op'))
  (faithful : forall op op', vo op -> vo op' -> fields op = fields op' -> op = op')
  (fed : forall op, vo op -> Forall2 feeds (fields op) (bytes op)) (inner : forall op, vo op -> fields_hashed (fields op) (hashed op))
  (careful : trusts_only_closed medium P md I resolve) (careful' : trusts_only_closed medium P md' I resolve')
  (accepted : receive cs co cp Fail Warn Info resolve r bs = Some Valid)
  (accepted' : receive cs co cp Fail' Warn' Info' resolve' r' bs' = Some Valid)
  (read : dec (c_consignment cs co cp) bs = Some (xs, [])) (read' : dec (c_consignment cs co cp) bs' = Some (xs', []))
  (same_seals : map (fun x => fst (fst x)) xs = map (fun x => fst (fst x)) xs'),
  let id op := HASH (s_pre (ce_tag I) (concat (bytes op))) in
  let strings x := let '(_, op, (_, pf)) := x in proof_pre pf pid (id op) ++ s_pre (ce_tag I) (concat (bytes op)) :: hashed op in
  bs = bs' \/ collision_in (flat_map strings xs ++ flat_map strings xs').
Proof.
  intros H Op Seal Pub PubId PubErr CliErr Issue Fail Warn Info Res Issue' Fail' Warn' Info' Res' cs co cp vs vo vp medium P md md' pid I fields bytes hashed
    resolve r resolve' r' bs bs' xs xs' Ls Lo Lp CL ONE ENC REG FAI FED INN CA CA' AC AC' RD RD' SS id strings.
  destruct (received cs co cp vs vo vp Ls Lo Lp resolve r bs _ AC) as (ys & D1 & E1 & _ & V1 & S1).
  destruct (received cs co cp vs vo vp Ls Lo Lp resolve' r' bs' _ AC') as (ys' & D2 & E2 & _ & V2 & S2).
  assert (ys = xs) by congruence. assert (ys' = xs') by congruence. subst ys ys'.
  enough (X : xs = xs' \/ collision_in (flat_map strings xs ++ flat_map strings xs')).
  { destruct X as [X|X]; [left; congruence|right; exact X]. }
  rewrite Forall_forall in V1, V2.
  assert (G : forall l l', incl l xs -> incl l' xs' -> map (fun x : claim Op Seal Pub => fst (fst x)) l = map (fun x => fst (fst x)) l' ->
    l = l' \/ collision_in (flat_map strings xs ++ flat_map strings xs')).
  { induction l as [|x l IH]; intros [|x' l'] IN IN' E; try discriminate; [left; reflexivity|].
    injection E as ES E. destruct (IH l') as [->|K]; [intros z J; apply IN; right; exact J|intros z J; apply IN'; right; exact J|exact E| |right; exact K].
    pose proof (IN _ (or_introl eq_refl)) as J. pose proof (IN' _ (or_introl eq_refl)) as J'.
    destruct (V1 _ J) as [[_ O1] _]. destruct (V2 _ J') as [[_ O2] _].
    destruct x as [[s op] [pub pf]]. destruct x' as [[s' op'] [pub' pf']]. cbn in ES, O1, O2. subst s'.
    destruct (c82_no_double_spend H Op Seal Pub PubId PubErr CliErr medium P md md' pid I fields Issue Fail Warn Info Res Issue' Fail' Warn' Info' Res'
      resolve resolve' (ClientData [] status_new) (history xs) r (ClientData [] status_new) (history xs') r' s op op' pub pf pub' pf'
      (bytes op) (bytes op') (hashed op) (hashed op') CL ONE ENC (REG _ _ O1 O2) (FAI _ _ O1 O2) CA CA' (eq_sym S1) (eq_sym S2)
      (proj2 (history_claims _ _) J) (proj2 (history_claims _ _) J') (FED _ O1) (FED _ O2) (INN _ O1) (INN _ O2)) as [(-> & -> & ->)|K]; [left; reflexivity|right].
    eapply coll_incl; [|exact K]. intros z. rewrite !in_app_iff.
    assert (A : forall z, In z (strings (s, op, (pub, pf))) -> In z (flat_map strings xs)) by (intros z' Q; apply in_flat_map; exists (s, op, (pub, pf)); auto).
    assert (B : forall z, In z (strings (s, op', (pub', pf'))) -> In z (flat_map strings xs')) by (intros z' Q; apply in_flat_map; exists (s, op', (pub', pf')); auto).
    cbn [strings] in A, B. intros [[Q|Q]|[Q|Q]]; [left; apply A|right; apply B|left; apply A|right; apply B]; apply in_or_app; auto. }
  apply G; [apply incl_refl|apply incl_refl|exact SS].
Qed.

Lemma c109_channel : forall n U q k D Op Seal Pub PubId PubErr CliErr Issue Fail Warn Info Res (cs : codec Seal) (co : codec Op) (cp : codec Pub) vs vo vp
  tag (I : Hasher -> commit_encode Op) (fields : Op -> list field) pid (source : Seal -> bytes32 -> multi_source * option N)
  (orders : list (Seal * Op)) (adversary : prog (list byte))
  (seals : lawful cs vs) (ops : lawful co vo) (pubs : lawful cp vp)
  (regular : forall op op', vo op -> vo op' -> Forall2 same_kind (fields op) (fields op'))
  (faithful : forall op op', vo op -> vo op' -> fields op = fields op' -> op = op')
  (sizes : forall H op, vo op -> small H n k tag (fields op)) (ordered : forall s op, In (s, op) orders -> vo op)
  (strings : universe n U) (short : 162 <= n) (short_tag : length tag <= n) (few : modest n q adversary)
  (encoder : forall H, feeds_fields H tag fields (I H)),
  let K := N.of_nat (length orders * (k + 2 + (2 * 2 ^ D + 2))) in
  rare U (fun H => tampered PubId PubErr CliErr Issue Fail Warn Info Res H cs co cp (I H) pid source D orders (exec H adversary))
       (K * (K - 1) + 2 * K * N.of_nat (q + length orders * (k + 37))) (2 ^ 257).
Proof.
  intros n U q k D Op Seal Pub PubId PubErr CliErr Issue Fail Warn Info Res cs co cp vs vo vp tag I fields pid source orders adv
    Ls Lo Lp REG FAI SZ OO UU N NT M ENC. cbv zeta.
  set (first := fun so : Seal * Op => andthen (p_id n k tag (fields (snd so))) (fun id => p_commit D (fst (source (fst so) id)) (snd (source (fst so) id)))).
  set (check := fun x : claim Op Seal Pub => andthen (p_id n k tag (fields (snd (fst x)))) (fun i => p_check (snd (snd x)) pid i)).
  replace (N.of_nat (length orders * (k + 2 + (2 * 2 ^ D + 2))) - 1)%N with (N.of_nat (length orders * (k + 2 + (2 * 2 ^ D + 2)) - 1)) by lia.
  apply (rare_late n U (p_every first orders) adv
    (fun bs => match dec (c_consignment cs co cp) bs with
               | Some (xs, _) => if length xs =? length orders then p_every check xs else Done tt
               | None => Done tt
               end)); try assumption.
  - apply p_every_modest. intros so. apply modest_andthen; [apply p_id_modest; assumption|]. intros id. apply p_commit_modest, N.
  - intros bs. destruct (dec (c_consignment cs co cp) bs) as [[xs rest]|]; [|exact Logic.I].
    destruct (Nat.eqb_spec (length xs) (length orders)) as [<-|]; [|exact Logic.I].
    apply p_every_modest. intros x. replace (k + 37) with (k + 2 + 35) by lia.
    apply modest_andthen; [apply p_id_modest; assumption|intros i]. apply p_check_modest, N.
  - intros H. set (bs := exec H adv).
    intros (medium & P & md & md' & resolve & r & sent & read & CL & ONE & CA & EO & HO & RD & SS & RC & NE).
    rewrite RD. pose proof (f_equal (@length _) SS) as LR. rewrite !map_length in LR.
    cbv beta iota.
    match goal with |- context [?a =? ?b] => replace (a =? b) with true by (symmetry; apply Nat.eqb_eq; exact LR) end.
    destruct (received cs co cp vs vo vp Ls Lo Lp resolve r bs _ RC) as (ys & D1 & E1 & _ & V1 & S1).
    assert (ys = read) by congruence. subst ys. rewrite Forall_forall in V1.
    enough (X : sent = read \/ @second_in H (asked H (p_every first orders)) (asked H (p_every check read))).
    { destruct X as [X|X]; [destruct NE; congruence|exact X]. }
    assert (SS' : map (fun x : claim Op Seal Pub => fst (fst x)) read = map (fun x => fst (fst x)) sent) by (etransitivity; [exact SS|]; rewrite <- EO, map_map; reflexivity).
    assert (G : forall l l', incl l read -> incl l' sent -> map (fun x : claim Op Seal Pub => fst (fst x)) l = map (fun x => fst (fst x)) l' ->
      l' = l \/ @second_in H (asked H (p_every first orders)) (asked H (p_every check read))).
    { induction l as [|x' l IH]; intros [|x l'] IN IN' E; try discriminate; [left; reflexivity|].
      injection E as ES E. destruct (IH l') as [->|Z]; [intros z J; apply IN; right; exact J|intros z J; apply IN'; right; exact J|exact E| |right; exact Z].
      pose proof (IN _ (or_introl eq_refl)) as J'. pose proof (IN' _ (or_introl eq_refl)) as J.
      destruct (V1 _ J') as [[_ O2] _].
      assert (JO : In (fst x) orders) by (rewrite <- EO; apply in_map; exact J).
      pose proof (p_every_asked H first orders _ JO) as AF. pose proof (p_every_asked H check read _ J') as AC.
      pose proof (HO _ J) as T.
      destruct x as [[s op] [pub pf]]. destruct x' as [[s' op'] [pub' pf']]. cbn [fst snd] in ES, O2, JO. subst s'.
      pose proof (OO _ _ JO) as O1. unfold first in AF. unfold check in AC. cbn [fst snd] in AF, AC.
      destruct T as (id & t & c & I1 & Vs & Ip & Et & Lt & Ct & Xp & Me0 & Ve & _).
      pose proof (valid_claims _ _ _ _ _ _ _ _ _ CA (eq_sym S1) (proj2 (history_claims _ _) J')) as [V [Me [i' [I2 C1]]]].
      rewrite Me in Me0. injection Me0 as ->.
      unfold verify_seal_closing in C1. apply closing_ok in C1 as [_ [c' [X A]]].
      pose proof (ONE _ _ _ _ _ A Ve) as Q. subst c'. destruct (CL _ _ _ X) as [d2 Y].
      destruct (SZ H op O1) as (W1 & b1 & B1 & Z1). destruct (SZ H op' O2) as (W2 & b2 & B2 & Z2).
      destruct (id_runs H md tag fields (I H) op id b1 (ENC H) I1 B1) as [Q1 [e R1]].
      destruct (id_runs H md' tag fields (I H) op' i' b2 (ENC H) I2 B2) as [Q2 [e' R2]].
      destruct (p_id_spec H n k tag (fields op) b1 W1 B1 Z1) as (X1 & L & FH & IL).
      destruct (p_id_spec H n k tag (fields op') b2 W2 B2 Z2) as (X2 & L' & FH' & IL').
      rewrite asked_andthen, X1, <- Q1 in AF. rewrite asked_andthen, X2, <- Q2 in AC.
      destruct (proj1 (c105_extract H md _ _ t c Vs Et Ct) d2 pf' pid i' V Y) as [[Im Xp']|Z].
      - assert (EI : id = i').
        { apply (om_In_get b32_ltb) in Ip; [|apply Vs]. apply (om_In_get b32_ltb) in Im; [|apply Vs]. congruence. }
        destruct (c108_extract H md md' tag (fields op) (fields op') e e' b1 b2 L L' R1 R2 (REG _ _ O1 O2) B1 B2 FH FH') as [Z|Z].
        + rewrite (c34_digest H md tag _ e b1 R1 B1), (c34_digest H md' tag _ e' b2 R2 B2). congruence.
        + left. apply (FAI _ _ O1 O2) in Z as <-.
          assert (pf' = pf); [|subst; reflexivity].
          assert (RR : forall m p, @to_merkle_proof H m (block_of_tree t) pid = Ret (Ok p) -> @to_merkle_proof H Release (block_of_tree t) pid = Ret (Ok p)).
          { intros m p Hm. destruct m; [|exact Hm]. pose proof (c57_blocks H (block_of_tree t) (block_of_tree t) [] pid pid pf) as RF. apply RF, Hm. }
          apply RR in Xp. apply RR in Xp'. congruence.
        + right. eapply second_mono; [| |exact Z]; (eapply incl_tran; [|eassumption]); apply incl_appl; assumption.
      - right. eapply second_mono; [| |exact Z]; (eapply incl_tran; [|eassumption]); apply incl_appr; [apply (p_commit_asked H D _ _ t Et Lt)|apply (p_check_asked H d2 _ _ _ c Y)]. }
    apply (G read sent (incl_refl _) (incl_refl _) SS').
Qed.

Lemma c109_numbers : forall n U q k D Op Seal Pub PubId PubErr CliErr Issue Fail Warn Info Res (cs : codec Seal) (co : codec Op) (cp : codec Pub) vs vo vp
  tag (I : Hasher -> commit_encode Op) (fields : Op -> list field) pid (source : Seal -> bytes32 -> multi_source * option N)
  (orders : list (Seal * Op)) (adversary : prog (list byte))
  (seals : lawful cs vs) (ops : lawful co vo) (pubs : lawful cp vp)
  (regular : forall op op', vo op -> vo op' -> Forall2 same_kind (fields op) (fields op'))
  (faithful : forall op op', vo op -> vo op' -> fields op = fields op' -> op = op')
  (sizes : forall H op, vo op -> small H n k tag (fields op)) (ordered : forall s op, In (s, op) orders -> vo op)
  (strings : universe n U) (short : 162 <= n) (short_tag : length tag <= n) (few : modest n q adversary)
  (encoder : forall H, feeds_fields H tag fields (I H))
  (work : (N.of_nat q <= 2 ^ 100)%N) (size : (N.of_nat k <= 2 ^ 16)%N) (depth : D <= 16) (number : (N.of_nat (length orders) <= 2 ^ 16)%N),
  rare U (fun H => tampered PubId PubErr CliErr Issue Fail Warn Info Res H cs co cp (I H) pid source D orders (exec H adversary)) 1 (2 ^ 121).
Proof.
  intros n U q k D Op Seal Pub PubId PubErr CliErr Issue Fail Warn Info Res cs co cp vs vo vp tag I fields pid source orders adv
    Ls Lo Lp REG FAI SZ OO UU N NT M ENC W Kk HD NO.
  pose proof (c109_channel n U q k D Op Seal Pub PubId PubErr CliErr Issue Fail Warn Info Res cs co cp vs vo vp tag I fields pid source orders adv
    Ls Lo Lp REG FAI SZ OO UU N NT M ENC) as X.
  cbv zeta in X. refine (rare_weaken U _ _ _ _ _ _ _ X); [|vm_compute; discriminate]. clear X.
  set (m := length orders) in *. set (K := N.of_nat (m * (k + 2 + (2 * 2 ^ D + 2)))).
  assert (P : (N.of_nat (2 ^ D) <= 2 ^ 16)%N).
  { rewrite Nat2N.inj_pow. apply N.pow_le_mono_r; [discriminate|]. lia. }
  assert (KB : (K <= 2 ^ 16 * 2 ^ 18)%N).
  { unfold K. rewrite Nat2N.inj_mul. apply N.mul_le_mono; [exact NO|]. rewrite !Nat2N.inj_add, Nat2N.inj_mul. change (N.of_nat 2) with 2%N.
    change (2 ^ 18)%N with (2 ^ 16 + 2 * 2 ^ 16 + 2 ^ 16)%N. lia. }
  assert (QB : (N.of_nat (q + m * (k + 37)) <= 2 ^ 100 + 2 ^ 16 * (2 ^ 16 + 37))%N).
  { rewrite Nat2N.inj_add, Nat2N.inj_mul, Nat2N.inj_add. change (N.of_nat 37) with 37%N. apply N.add_le_mono; [exact W|]. apply N.mul_le_mono; lia. }
  transitivity (((2 ^ 16 * 2 ^ 18) * (2 ^ 16 * 2 ^ 18) + 2 * (2 ^ 16 * 2 ^ 18) * (2 ^ 100 + 2 ^ 16 * (2 ^ 16 + 37))) * 2 ^ 121)%N; [|vm_compute; discriminate].
  apply N.mul_le_mono_r, N.add_le_mono; [apply N.mul_le_mono; lia|]. apply N.mul_le_mono; [lia|exact QB].
Qed.
