(** Proofs about the commit engine, the derive strategies and ReservedBytes. *)
From Verif Require Import Base BaseFacts OrdMap Strict StrictProofs Digest Merkle MpcAtoms MpcTree MpcBlock Engine.
From Verif Require Import SpecHash SpecMerkle HashFacts MerkleProofs BlockInv SpecEngine.
From Verif Require Import SpecCodec.
Local Open Scope nat_scope.

Lemma debug_assert_inv md b u : debug_assert md b = Ret u -> md = Debug -> b = true.
Proof. intros E ->. destruct b; [reflexivity|discriminate E]. Qed.
Lemma debug_assert_ok md b : (md = Debug -> b = true) -> debug_assert md b = Ret tt.
Proof. destruct md; cbn; intros E; [rewrite E; reflexivity|reflexivity]. Qed.

Lemma push_inv e s e' : push_step e s = Ret e' ->
  length (en_layout e) < 255 /\ e' = Engine (en_finished e) (en_hasher e) (en_layout e ++ [s]).
Proof.
  unfold push_step. destruct (length (en_layout e) <? 255) eqn:E; [|discriminate].
  apply Nat.ltb_lt in E. intros X; injection X as <-. split; [exact E|reflexivity].
Qed.
Lemma push_ok e s : length (en_layout e) < 255 ->
  push_step e s = Ret (Engine (en_finished e) (en_hasher e) (en_layout e ++ [s])).
Proof. intros E. unfold push_step. apply Nat.ltb_lt in E. rewrite E. reflexivity. Qed.

Lemma inner_inv md e bs e' : inner_commit_to md e bs = Ret e' ->
  (md = Debug -> en_finished e = false) /\ e' = Engine (en_finished e) (en_hasher e ++ bs) (en_layout e).
Proof.
  unfold inner_commit_to. intros E. apply bind_inv in E as [u [E1 E2]]. injection E2 as <-.
  split; [|reflexivity]. intros Hm. apply (debug_assert_inv _ _ _ E1) in Hm.
  destruct (en_finished e); [discriminate Hm|reflexivity].
Qed.
Lemma inner_ok md e bs : (md = Debug -> en_finished e = false) ->
  inner_commit_to md e bs = Ret (Engine (en_finished e) (en_hasher e ++ bs) (en_layout e)).
Proof.
  intros Hm. unfold inner_commit_to. rewrite debug_assert_ok; [reflexivity|].
  intros D. rewrite (Hm D). reflexivity.
Qed.

Lemma fqn_inv t f : commitment_fqn t = Ret f -> has_fqn t f.
Proof.
  destruct t as [lib [n|]]; cbn; intros E; [|discriminate E]. injection E as <-. reflexivity.
Qed.
Lemma fqn_ok t f : has_fqn t f -> commitment_fqn t = Ret f.
Proof. unfold has_fqn. intros ->. destruct f; reflexivity. Qed.

Lemma prefix_len_size max : prefix_size max (prefix_len max).
Proof.
  unfold prefix_len.
  destruct (max <=? 0xFF)%N eqn:E1; [apply N.leb_le in E1; apply ps_8; lia|apply N.leb_gt in E1].
  destruct (max <=? 0xFFFF)%N eqn:E2; [apply N.leb_le in E2; apply ps_16; lia|apply N.leb_gt in E2].
  destruct (max <=? 0xFFFFFF)%N eqn:E3; [apply N.leb_le in E3; apply ps_24; lia|apply N.leb_gt in E3].
  destruct (max <=? 0xFFFFFFFF)%N eqn:E4; [apply N.leb_le in E4; apply ps_32; lia|apply N.leb_gt in E4].
  apply ps_64; lia.
Qed.
Lemma prefix_size_fun max k : prefix_size max k -> k = prefix_len max.
Proof.
  unfold prefix_len.
  intros P; destruct P as [max P|max P|max P|max P|max P].
  - replace (max <=? 0xFF)%N with true by (symmetry; apply N.leb_le; lia). reflexivity.
  - replace (max <=? 0xFF)%N with false by (symmetry; apply N.leb_gt; lia).
    replace (max <=? 0xFFFF)%N with true by (symmetry; apply N.leb_le; lia). reflexivity.
  - replace (max <=? 0xFF)%N with false by (symmetry; apply N.leb_gt; lia).
    replace (max <=? 0xFFFF)%N with false by (symmetry; apply N.leb_gt; lia).
    replace (max <=? 0xFFFFFF)%N with true by (symmetry; apply N.leb_le; lia). reflexivity.
  - replace (max <=? 0xFF)%N with false by (symmetry; apply N.leb_gt; lia).
    replace (max <=? 0xFFFF)%N with false by (symmetry; apply N.leb_gt; lia).
    replace (max <=? 0xFFFFFF)%N with false by (symmetry; apply N.leb_gt; lia).
    replace (max <=? 0xFFFFFFFF)%N with true by (symmetry; apply N.leb_le; lia). reflexivity.
  - replace (max <=? 0xFF)%N with false by (symmetry; apply N.leb_gt; lia).
    replace (max <=? 0xFFFF)%N with false by (symmetry; apply N.leb_gt; lia).
    replace (max <=? 0xFFFFFF)%N with false by (symmetry; apply N.leb_gt; lia).
    replace (max <=? 0xFFFFFFFF)%N with false by (symmetry; apply N.leb_gt; lia). reflexivity.
Qed.
Lemma prefix_fits max k : prefix_size max k -> (max < 2 ^ 64)%N -> (max < 256 ^ N.of_nat k)%N.
Proof.
  intros P; destruct P; intros L; cbn [N.of_nat Pos.of_succ_nat Pos.succ];
    match goal with |- (_ < 256 ^ ?x)%N => let y := eval vm_compute in (256 ^ x)%N in change (256 ^ x)%N with y end;
    lia.
Qed.

Section WithHash.
Context {H : Hasher}.

(** What a returning call did. *)
Definition fed (md : mode) (f : field) (e e' : engine) : Prop :=
  length (en_layout e) < 255 /\ (md = Debug -> en_finished e = false) /\
  exists s bs, step_for f s /\ feeds f bs /\
    e' = Engine (en_finished e) (en_hasher e ++ bs) (en_layout e ++ [s]).

Lemma names_differ t f lib' n' : has_fqn t f ->
  (negb (String.eqb (fq_name f) n') || negb (String.eqb (fq_lib f) lib'))%bool = true <->
  t <> SType lib' (Some n').
Proof.
  intros ->. destruct f as [lib n]; cbn [fq_lib fq_name].
  destruct (String.eqb_spec n n') as [->|Nn]; destruct (String.eqb_spec lib lib') as [->|Nl]; cbn; split;
    intros E; try reflexivity; try congruence; try discriminate E.
Qed.

Lemma merklize_ret_bound ls r : merklize ls = Ret r -> (N.of_nat (length ls) < 2 ^ 32)%N /\ merkle_root_of ls r.
Proof.
  intros E. destruct (N.lt_ge_cases (N.of_nat (length ls)) (2 ^ 32)) as [L|L].
  - destruct (merklize_spec ls L) as [r' [E' R]]. rewrite E' in E. injection E as <-. auto.
  - rewrite (merklize_too_many ls L) in E. discriminate E.
Qed.

Lemma run1_inv md f e e' : run1 md f e = Ret e' -> fed md f e e' /\ allowed_field md f.
Proof.
  destruct f as [A T v|A T v|t id|t ls|C t CT c|A T min max l|A T min max l|K V TK TV min max l];
    cbn [run1]; intros E;
    unfold commit_to_serialized, commit_to_option, commit_to_hash, commit_to_merkle,
      commit_to_concealed, commit_to_linear_list, commit_to_linear_set, commit_to_linear_map in E;
    apply bind_inv in E as [f [E1 E]]; apply fqn_inv in E1.
  1:{ apply bind_inv in E as [u1 [A1 E]]. apply bind_inv in E as [u2 [A2 E]].
      apply bind_inv in E as [e1 [P E]]. apply push_inv in P as [HL ->]. apply inner_inv in E as [HF ->].
      cbn [en_finished en_hasher en_layout] in *. split.
      + split; [exact HL|split; [exact HF|]]. do 2 eexists. cbn. eauto.
      + cbn. intros Hm. split.
        * apply (debug_assert_inv _ _ _ A1) in Hm. apply (names_differ _ _ _ _ E1) in Hm. exact Hm.
        * apply (debug_assert_inv _ _ _ A2) in Hm. apply (names_differ _ _ _ _ E1) in Hm. exact Hm. }
  7:{ apply bind_inv in E as [f' [E1' E]]. apply fqn_inv in E1'.
      apply bind_inv in E as [e1 [P E]]. apply push_inv in P as [HL ->]. apply inner_inv in E as [HF ->].
      cbn [en_finished en_hasher en_layout] in *. split; [|exact I].
      split; [exact HL|split; [exact HF|]]. do 2 eexists. cbn [step_for feeds].
      split; [eauto 6|split; [|reflexivity]]. cbn [enc c_vec c_pair]. rewrite flat_map_concat_map.
      eexists. split; [apply prefix_len_size|reflexivity]. }
  all: apply bind_inv in E as [e1 [P E]]; apply push_inv in P as [HL ->]; cbn [bind] in E.
  3:{ apply bind_inv in E as [r [M E]]. apply merklize_ret_bound in M as [MB MR]. apply inner_inv in E as [HF ->].
      cbn [en_finished en_hasher en_layout] in *. split; [|exact MB].
      split; [exact HL|split; [exact HF|]]. do 2 eexists. cbn [step_for feeds].
      split; [eauto|split; [|reflexivity]]. exists r. auto. }
  all: apply inner_inv in E as [HF ->]; cbn [en_finished en_hasher en_layout] in *; split; [|exact I];
    split; [exact HL|split; [exact HF|]]; do 2 eexists; (split; [cbn [step_for]; eauto|split; [|reflexivity]]).
  1:{ destruct v; reflexivity. }
  1:{ reflexivity. }
  1:{ reflexivity. }
  all: cbn [enc c_vec feeds]; rewrite flat_map_concat_map; eexists; (split; [apply prefix_len_size|reflexivity]).
Qed.

Lemma run1_ok md f e s :
  length (en_layout e) < 255 -> (md = Debug -> en_finished e = false) -> step_for f s ->
  allowed_field md f -> exists e', run1 md f e = Ret e'.
Proof.
  intros HL HF HS HA.
  destruct f as [A T v|A T v|t id|t ls|C t CT c|A T min max l|A T min max l|K V TK TV min max l];
    cbn [run1]; unfold commit_to_serialized, commit_to_option, commit_to_hash, commit_to_merkle,
      commit_to_concealed, commit_to_linear_list, commit_to_linear_set, commit_to_linear_map;
    cbn [step_for] in HS.
  8:{ destruct HS as [k [q [Q1 [Q2 _]]]]. rewrite (fqn_ok _ _ Q1), (fqn_ok _ _ Q2). cbn [bind].
      rewrite push_ok by exact HL. cbn [bind]. rewrite inner_ok by exact HF. eauto. }
  all: destruct HS as [q [Q _]]; rewrite (fqn_ok _ _ Q); cbn [bind].
  1:{ rewrite debug_assert_ok.
      2:{ intros D. cbn in HA. destruct (HA D) as [N1 _]. apply (names_differ _ _ _ _ Q). exact N1. }
      cbn [bind]. rewrite debug_assert_ok.
      2:{ intros D. cbn in HA. destruct (HA D) as [_ N2]. apply (names_differ _ _ _ _ Q). exact N2. }
      cbn [bind]. rewrite push_ok by exact HL. cbn [bind]. rewrite inner_ok by exact HF. eauto. }
  3:{ rewrite push_ok by exact HL. cbn [bind]. cbn in HA. destruct (merklize_spec ls HA) as [r [-> _]].
      cbn [bind]. rewrite inner_ok by exact HF. eauto. }
  all: rewrite push_ok by exact HL; cbn [bind]; rewrite inner_ok by exact HF; eauto.
Qed.

(** C36 *)
Theorem run1_iff md f e :
  (exists e', run1 md f e = Ret e') <->
  length (en_layout e) < 255 /\ (md = Debug -> en_finished e = false) /\
  (exists s, step_for f s) /\ allowed_field md f.
Proof.
  split.
  - intros [e' E]. apply run1_inv in E as [[HL [HF [s [bs [HS _]]]]] HA]. eauto 6.
  - intros [HL [HF [[s HS] HA]]]. eapply run1_ok; eassumption.
Qed.

Lemma run_inv md fs : forall e e', run md fs e = Ret e' ->
  exists ss bss, Forall2 step_for fs ss /\ Forall2 feeds fs bss /\ Forall (allowed_field md) fs /\
    e' = Engine (en_finished e) (en_hasher e ++ concat bss) (en_layout e ++ ss) /\
    (fs <> [] -> (md = Debug -> en_finished e = false)) /\ (length fs + length (en_layout e) <= 255 \/ fs = []).
Proof.
  induction fs as [|f fs IH]; intros e e' E; cbn [run] in E.
  - injection E as <-. exists [], []. cbn. rewrite !app_nil_r. destruct e; cbn.
    split; [constructor|split; [constructor|split; [constructor|split; [reflexivity|split; [congruence|auto]]]]].
  - apply bind_inv in E as [e1 [E1 E2]]. apply run1_inv in E1 as [[HL [HF [s [bs [HS [HB ->]]]]]] HA].
    apply IH in E2 as [ss [bss [F1 [F2 [F3 [-> [_ HLn]]]]]]]. cbn [en_finished en_hasher en_layout] in *.
    exists (s :: ss), (bs :: bss). cbn [concat]. rewrite <- !app_assoc. cbn [app].
    split; [constructor; assumption|split; [constructor; assumption|split; [constructor; assumption|]]].
    split; [reflexivity|split].
    + intros _. exact HF.
    + left. cbn [length]. rewrite app_length in HLn. cbn [length] in HLn.
      destruct HLn as [HLn| ->]; cbn [length]; lia.
Qed.

Lemma run_ok md fs : forall e ss,
  Forall2 step_for fs ss -> Forall (allowed_field md) fs -> (md = Debug -> en_finished e = false) ->
  length fs + length (en_layout e) <= 255 -> exists e', run md fs e = Ret e'.
Proof.
  induction fs as [|f fs IH]; intros e ss F2 FA HF HL; cbn [run].
  - eauto.
  - inversion F2 as [|? s ? ss' HS F2' X1 X2]; subst. inversion FA as [|? ? HA FA']; subst. cbn in HL.
    destruct (run1_ok md f e s) as [e1 E1]; [lia|exact HF|exact HS|exact HA|].
    rewrite E1. cbn [bind]. apply run1_inv in E1 as [[_ [_ [s' [bs [_ [_ ->]]]]]] _].
    eapply IH; [exact F2'|exact FA'|exact HF|]. cbn [en_layout]. rewrite app_length. cbn. lia.
Qed.

Lemma run_app md fs gs e : run md (fs ++ gs) e = (e' <- run md fs e ;; run md gs e').
Proof.
  revert e; induction fs as [|f fs IH]; intros e; cbn; [reflexivity|].
  destruct (run1 md f e); cbn [bind]; [apply IH|reflexivity].
Qed.

(** C34 *)
Theorem run_digest md tag fs e :
  run md fs (engine_new tag) = Ret e ->
  exists bss ss, Forall2 feeds fs bss /\ Forall2 step_for fs ss /\
    digest_finish (engine_finish e) = HASH (s_pre tag (concat bss)) /\ into_layout e = ss /\
    en_finished e = false /\ length fs <= 255.
Proof.
  intros E. apply run_inv in E as [ss [bss [F1 [F2 [_ [-> [_ HL]]]]]]].
  exists bss, ss. cbn. split; [exact F2|split; [exact F1|]]. rewrite <- app_assoc. split; [reflexivity|].
  split; [reflexivity|split; [reflexivity|]]. cbn in HL. destruct HL as [HL| ->]; cbn; lia.
Qed.

Lemma feeds_fun f b b' : feeds f b -> feeds f b' -> b = b'.
Proof.
  destruct f as [A T v|A T [v|]|t id|t ls|C t CT c|A T min max l|A T min max l|K V TK TV min max l];
    cbn [feeds]; try congruence.
  - intros [r [R ->]] [r' [R' ->]]. rewrite (root_fun _ _ _ R R'). reflexivity.
  - intros [k [P ->]] [k' [P' ->]]. apply prefix_size_fun in P, P'. congruence.
  - intros [k [P ->]] [k' [P' ->]]. apply prefix_size_fun in P, P'. congruence.
  - intros [k [P ->]] [k' [P' ->]]. apply prefix_size_fun in P, P'. congruence.
Qed.

Lemma c_le_fixed k (n m : N) r s : le k n ++ r = le k m ++ s -> (n < 256 ^ N.of_nat k)%N -> (m < 256 ^ N.of_nat k)%N ->
  n = m /\ r = s.
Proof.
  intros E Hn Hm. apply (lawful_inj (c_le k) _ n m r s (c_le_lawful k)); assumption.
Qed.

Lemma items_inj {A} (c : codec A) val : lawful c val -> forall l m r s,
  Forall val l -> Forall val m -> length l = length m ->
  concat (map (enc c) l) ++ r = concat (map (enc c) m) ++ s -> l = m /\ r = s.
Proof.
  intros L. induction l as [|a l IH]; intros [|b m] r s Fl Fm HL E; try discriminate HL.
  - auto.
  - cbn in E. rewrite <- !app_assoc in E. inversion Fl; inversion Fm; subst.
    apply (lawful_inj c val a b _ _ L) in E as [-> E]; [|assumption|assumption].
    apply IH in E as [-> ->]; auto.
Qed.

Lemma seq_inj {A} (c : codec A) val max k k' l m r s :
  lawful c val -> Forall val l -> Forall val m ->
  (N.of_nat (length l) <= max)%N -> (N.of_nat (length m) <= max)%N -> (max < 2 ^ 64)%N ->
  prefix_size max k -> prefix_size max k' ->
  (le k (N.of_nat (length l)) ++ concat (map (enc c) l)) ++ r =
  (le k' (N.of_nat (length m)) ++ concat (map (enc c) m)) ++ s -> l = m /\ r = s.
Proof.
  intros L Fl Fm Hl Hm HM P P' E. pose proof (prefix_fits _ _ P HM) as B.
  rewrite (prefix_size_fun _ _ P'), <- (prefix_size_fun _ _ P) in E. rewrite <- !app_assoc in E.
  apply c_le_fixed in E as [EL E]; [|lia|lia]. apply Nat2N.inj in EL.
  eapply items_inj; eassumption.
Qed.

(** A field is determined by the bytes it contributes, whatever follows. *)
Lemma field_inj f g b c r s L L' :
  same_kind f g -> feeds f b -> feeds g c ->
  (match f, g with FMerkle _ xs, FMerkle _ ys =>
     (N.of_nat (length xs) < 2 ^ 32)%N /\ (N.of_nat (length ys) < 2 ^ 32)%N /\
     root_hashed xs L /\ root_hashed ys L' | _, _ => True end) ->
  b ++ r = c ++ s -> (f = g /\ r = s) \/ collision_in (L ++ L').
Proof.
  intros SK Fb Fc HM E.
  destruct SK as [A T val v w LW Vv Vw|A T val v w LW Vv Vw|t i j|t xs ys N1|C t CT val v w LW Vv Vw
                 |A T val min max l m LW Fl Fm Hl Hm Hx|A T val min max l m LW Fl Fm Hl Hm Hx
                 |K V TK TV vk vv min max l m LK LV Fl Fm Hl Hm Hx]; cbn [feeds] in Fb, Fc.
  - subst b c. left. apply (lawful_inj _ _ _ _ _ _ LW Vv Vw) in E as [-> ->]. auto.
  - left. destruct v as [v|], w as [w|]; subst b c; cbn [app] in E; try discriminate E.
    + apply cons_inv in E as [_ E].
      apply (lawful_inj _ _ _ _ _ _ LW (Vv v eq_refl) (Vw w eq_refl)) in E as [-> ->]. auto.
    + apply cons_inv in E as [_ ->]. auto.
  - subst b c. left. apply (lawful_inj c_b32 any i j r s c_b32_lawful I I) in E as [-> ->]. auto.
  - destruct Fb as [x [Rx ->]], Fc as [y [Ry ->]], HM as [B1 [B2 [H1 H2]]].
    apply (lawful_inj c_b32 any x y r s c_b32_lawful I I) in E as [-> ->].
    destruct (merklize_binding xs ys y L L' B1 B2 Rx Ry H1 H2 N1) as [->|Co]; auto.
  - subst b c. left. apply (lawful_inj _ _ _ _ _ _ LW Vv Vw) in E as [-> ->]. auto.
  - destruct Fb as [k [P ->]], Fc as [k' [P' ->]]. left.
    apply (seq_inj _ _ _ _ _ _ _ _ _ LW Fl Fm Hl Hm Hx P P') in E as [-> ->]. auto.
  - destruct Fb as [k [P ->]], Fc as [k' [P' ->]]. left.
    apply (seq_inj _ _ _ _ _ _ _ _ _ LW Fl Fm Hl Hm Hx P P') in E as [-> ->]. auto.
  - destruct Fb as [k [P ->]], Fc as [k' [P' ->]]. left.
    apply (seq_inj (c_pair (ty_codec TK) (ty_codec TV)) (fun p => vk (fst p) /\ vv (snd p)) max k k' l m r s)
      in E as [-> ->]; auto.
    apply c_pair_lawful; assumption.
Qed.

Lemma fields_inj fs gs : Forall2 same_kind fs gs -> forall bs cs Lf Lg md md',
  Forall2 feeds fs bs -> Forall2 feeds gs cs ->
  Forall (allowed_field md) fs -> Forall (allowed_field md') gs ->
  fields_hashed fs Lf -> fields_hashed gs Lg ->
  concat bs = concat cs -> fs = gs \/ collision_in (Lf ++ Lg).
Proof.
  induction 1 as [|f g fs gs SK F2 IH]; intros bs cs Lf Lg md md' Fb Fc Af Ag Hf Hg E.
  - left. reflexivity.
  - inversion Fb as [|? b ? bs' Fb1 Fb2]; subst. inversion Fc as [|? c ? cs' Fc1 Fc2]; subst.
    inversion Af as [|? ? Af1 Af2]; subst. inversion Ag as [|? ? Ag1 Ag2]; subst.
    cbn [concat] in E.
    assert (X : exists L L' Lf' Lg', fields_hashed fs Lf' /\ fields_hashed gs Lg' /\
       incl (L ++ L') (Lf ++ Lg) /\ incl (Lf' ++ Lg') (Lf ++ Lg) /\
       (match f, g with FMerkle _ xs, FMerkle _ ys =>
         (N.of_nat (length xs) < 2 ^ 32)%N /\ (N.of_nat (length ys) < 2 ^ 32)%N /\
         root_hashed xs L /\ root_hashed ys L' | _, _ => True end)).
    { inversion Hf as [|t ls fs0 L Ls RH FH|f0 fs0 Ls NM FH]; subst.
      - inversion SK; subst. inversion Hg as [|t' ls' gs0 L' Ls' RH' FH'|f0 gs0 Ls' NM FH']; subst.
        2:{ exfalso. eapply NM. reflexivity. }
        exists L, L', Ls, Ls'. repeat split; auto.
        + intros x Hx. apply in_app_iff in Hx. rewrite !in_app_iff. tauto.
        + intros x Hx. apply in_app_iff in Hx. rewrite !in_app_iff. tauto.
      - inversion Hg as [|t' ls' gs0 L' Ls' RH' FH'|f1 gs0 Ls' NM' FH']; subst.
        + inversion SK; subst. exfalso. eapply NM. reflexivity.
        + exists [], [], Lf, Lg. repeat split; auto.
          * intros x [].
          * intros x Hx; exact Hx.
          * destruct f; auto. exfalso. eapply NM. reflexivity. }
    destruct X as [L [L' [Lf' [Lg' [X1 [X2 [X3 [X4 X5]]]]]]]].
    destruct (field_inj f g b c (concat bs') (concat cs') L L' SK Fb1 Fc1 X5 E) as [[-> E']|Co].
    + destruct (IH bs' cs' Lf' Lg' md md' Fb2 Fc2 Af2 Ag2 X1 X2 E') as [->|Co]; [left; reflexivity|right].
      exact (coll_incl _ _ X4 Co).
    + right. exact (coll_incl _ _ X3 Co).
Qed.

Lemma root_hashed_exists ls : exists L, root_hashed ls L.
Proof.
  destruct ls as [|a [|b ls]].
  - eexists. apply hashed_tree; [discriminate|constructor].
  - eexists. apply hashed_single.
  - destruct (splits_exists (a :: b :: ls)) as [t S]. eexists. apply hashed_tree; [discriminate|exact S].
Qed.
Lemma fields_hashed_exists fs : exists L, fields_hashed fs L.
Proof.
  induction fs as [|f fs [L IH]]; [eexists; constructor|].
  destruct f as [A T v|A T v|t id|t ls|C t CT c|A T min max l|A T min max l|K V TK TV min max l];
    try (eexists; apply fh_other; [congruence|eassumption]).
  destruct (root_hashed_exists ls) as [L' RH]. eexists. apply fh_merkle; eassumption.
Qed.

(** C35 *)
Theorem run_binding md md' tag fs gs e e' bs cs Lf Lg :
  run md fs (engine_new tag) = Ret e -> run md' gs (engine_new tag) = Ret e' ->
  Forall2 same_kind fs gs -> Forall2 feeds fs bs -> Forall2 feeds gs cs ->
  fields_hashed fs Lf -> fields_hashed gs Lg ->
  digest_finish (engine_finish e) = digest_finish (engine_finish e') ->
  fs = gs \/ collision_in ((s_pre tag (concat bs) :: Lf) ++ (s_pre tag (concat cs) :: Lg)).
Proof.
  intros R1 R2 SK Fb Fc Hf Hg E.
  apply run_inv in R1 as [ss [bs' [_ [Fb' [Af [-> _]]]]]].
  apply run_inv in R2 as [ss' [cs' [_ [Fc' [Ag [-> _]]]]]].
  assert (U : forall l x y, Forall2 feeds l x -> Forall2 feeds l y -> x = y).
  { induction l as [|f l IH]; intros x y X Y; inversion X; inversion Y; subst; [reflexivity|].
    f_equal; [eapply feeds_fun; eassumption|apply IH; assumption]. }
  rewrite <- (U _ _ _ Fb Fb'), <- (U _ _ _ Fc Fc') in E. clear U Fb' Fc'.
  cbn in E. unfold digest_finish in E. rewrite <- !app_assoc in E.
  set (LL := _ ++ _ : list (list byte)).
  destruct (coll LL (s_pre tag (concat bs)) (s_pre tag (concat cs))) as [X|Co]; [| |exact E| |].
  - left; reflexivity.
  - apply in_app_iff. right; left; reflexivity.
  - apply s_pre_inj in X. destruct (fields_inj fs gs SK bs cs Lf Lg md md' Fb Fc Af Ag Hf Hg X) as [->|Co]; [auto|].
    right. eapply coll_incl; [|exact Co]. intros x Hx. apply in_app_iff in Hx. unfold LL.
    rewrite in_app_iff. cbn [In]. tauto.
  - auto.
Qed.

(** In release builds the finished flag has no effect. *)
Lemma run1_release_finished f e b :
  run1 Release f (Engine b (en_hasher e) (en_layout e)) =
  match run1 Release f e with
  | Ret e' => Ret (Engine b (en_hasher e') (en_layout e'))
  | Panic p => Panic p
  end.
Proof.
  destruct e as [fin h l]. cbn [en_hasher en_layout].
  destruct f as [A T v|A T v|t id|t ls|C t CT c|A T min max x|A T min max x|K V TK TV min max x];
    cbn [run1]; unfold commit_to_serialized, commit_to_option, commit_to_hash, commit_to_merkle,
      commit_to_concealed, commit_to_linear_list, commit_to_linear_set, commit_to_linear_map, push_step,
      inner_commit_to; cbn [en_layout en_finished en_hasher].
  all: match goal with |- context [commitment_fqn ?t] => destruct (commitment_fqn t); cbn [bind debug_assert]; [|reflexivity] end.
  8:{ match goal with |- context [commitment_fqn ?t] => destruct (commitment_fqn t); cbn [bind debug_assert]; [|reflexivity] end.
      destruct (length l <? 255); cbn; reflexivity. }
  4:{ destruct (length l <? 255); cbn; [|reflexivity]. destruct (merklize ls); cbn; reflexivity. }
  all: destruct (length l <? 255); cbn; reflexivity.
Qed.

(** ** Derive strategies *)

Definition one_step (md : mode) (tag : list byte) (s : commit_step) (bs : list byte) : engine :=
  Engine true (from_tag tag ++ bs) [s].

Theorem derive_strict_commit {A} md tag idty (T : typed A) f v :
  has_fqn (ty T) f -> (md = Debug -> not_reserved_type (ty T)) ->
  commit md (derive_strict tag idty T) v = Ret (one_step md tag (StSerialized f) (enc (ty_codec T) v)).
Proof.
  intros Q N. unfold commit, derive_strict, commit_to_serialized. cbn [ce_encode ce_tag].
  rewrite (fqn_ok _ _ Q). cbn [bind].
  rewrite debug_assert_ok by (intros D; apply (names_differ _ _ _ _ Q), (proj1 (N D))). cbn [bind].
  rewrite debug_assert_ok by (intros D; apply (names_differ _ _ _ _ Q), (proj2 (N D))). cbn [bind].
  unfold push_step. cbn. rewrite inner_ok by (intros _; reflexivity). reflexivity.
Qed.
Theorem derive_transparent_commit {A B} md tag idty (T : typed B) (inner : A -> B) f v :
  has_fqn (ty T) f -> (md = Debug -> not_reserved_type (ty T)) ->
  commit md (derive_transparent tag idty T inner) v =
  Ret (one_step md tag (StSerialized f) (enc (ty_codec T) (inner v))).
Proof. intros Q N. exact (derive_strict_commit md tag idty T f (inner v) Q N). Qed.
Theorem derive_conceal_commit {A B C} md tag idty (c1 : mode -> A -> outcome B) t2 (c2 : mode -> B -> outcome C)
    CT f v b c :
  has_fqn t2 f -> c1 md v = Ret b -> c2 md b = Ret c ->
  commit md (derive_conceal tag idty c1 t2 c2 CT) v = Ret (one_step md tag (StConcealed f) (enc CT c)).
Proof.
  intros Q E1 E2. unfold commit, derive_conceal, commit_to_concealed. cbn [ce_encode ce_tag].
  rewrite E1. cbn [bind]. rewrite (fqn_ok _ _ Q). cbn [bind]. unfold push_step. cbn. rewrite E2. cbn [bind].
  rewrite inner_ok by (intros _; reflexivity). reflexivity.
Qed.
Theorem derive_merklize_commit {A} md tag idty leaf_ty (leaves : A -> list bytes32) f v :
  has_fqn leaf_ty f -> (N.of_nat (length (leaves v)) < 2 ^ 32)%N ->
  exists r, merkle_root_of (leaves v) r /\
  commit md (derive_merklize tag idty leaf_ty leaves) v = Ret (one_step md tag (StMerklized f) (b32 r)).
Proof.
  intros Q L. destruct (merklize_spec _ L) as [r [E R]]. exists r. split; [exact R|].
  unfold commit, derive_merklize, commit_to_merkle. cbn [ce_encode ce_tag].
  rewrite (fqn_ok _ _ Q). cbn [bind]. unfold push_step. cbn. rewrite E. cbn [bind].
  rewrite inner_ok by (intros _; reflexivity). reflexivity.
Qed.

Lemma one_step_id md tag s bs : digest_finish (engine_finish (one_step md tag s bs)) = HASH (s_pre tag bs).
Proof. cbn. rewrite <- app_assoc. reflexivity. Qed.

(** The commitment ids used throughout the MPC model are those of the engine. *)
Lemma not_reserved n : n <> "MerkleHash"%string -> n <> "StrictHash"%string -> not_reserved_type (named n).
Proof. intros A B. split; intros E; injection E; congruence. Qed.

Lemma named_fqn n : has_fqn (named n) (Fqn lib_commit_verify n).
Proof. reflexivity. Qed.

Theorem ce_leaf_id md l : commit_id md ce_leaf l = Ret (leaf_commit_id l).
Proof.
  unfold commit_id, ce_leaf.
  rewrite (derive_strict_commit md _ _ (Typed (named "Leaf") c_leaf) (Fqn lib_commit_verify "Leaf") l (named_fqn "Leaf"))
    by (intros _; apply not_reserved; discriminate).
  cbn [bind]. rewrite one_step_id. reflexivity.
Qed.
Theorem ce_node_id md n : commit_id md ce_merkle_node n = Ret (node_commit_id n).
Proof.
  unfold commit_id, ce_merkle_node.
  rewrite (derive_strict_commit md _ _ (Typed (named "MerkleNode") c_merkle_node) (Fqn lib_commit_verify "MerkleNode") n (named_fqn "MerkleNode"))
    by (intros _; apply not_reserved; discriminate).
  cbn [bind]. rewrite one_step_id. reflexivity.
Qed.
Theorem ce_concealed_id md c : commit_id md ce_concealed c = Ret (concealed_commit_id c).
Proof.
  unfold commit_id, ce_concealed.
  rewrite (derive_strict_commit md _ _ (Typed (named "MerkleConcealed") c_merkle_concealed) (Fqn lib_commit_verify "MerkleConcealed") c (named_fqn "MerkleConcealed"))
    by (intros _; apply not_reserved; discriminate).
  cbn [bind]. rewrite one_step_id. reflexivity.
Qed.
Theorem ce_block_id md b : commit_id md ce_block b = block_commit_id md b.
Proof.
  unfold block_commit_id. destruct (block_conceal md b) as [c|p] eqn:E; cbn [bind].
  - unfold commit_id, ce_block.
    rewrite (derive_conceal_commit md _ _ _ _ _ _ (Fqn lib_commit_verify "MerkleConcealed") b c c (named_fqn "MerkleConcealed") E eq_refl).
    cbn [bind]. rewrite one_step_id. reflexivity.
  - unfold commit_id, commit, ce_block, derive_conceal. cbn [ce_encode]. rewrite E. reflexivity.
Qed.
Theorem ce_tree_id md t : commit_id md ce_tree t = tree_commit_id md t.
Proof.
  unfold tree_commit_id. destruct (tree_conceal md t) as [c|p] eqn:E; cbn [bind].
  - unfold commit_id, ce_tree.
    rewrite (derive_conceal_commit md _ _ _ _ _ _ (Fqn lib_commit_verify "MerkleConcealed") t c c (named_fqn "MerkleConcealed") E eq_refl).
    cbn [bind]. rewrite one_step_id. reflexivity.
  - unfold commit_id, commit, ce_tree, derive_conceal. cbn [ce_encode]. rewrite E. reflexivity.
Qed.

(** Idempotent concealing: a value and its concealed form commit identically. *)
Theorem derive_conceal_idem {A} md tag idty (conceal : A -> A) t2 (CT : codec A) f v :
  has_fqn t2 f -> (forall x, conceal (conceal x) = conceal x) ->
  exists h, commit_id md (derive_conceal tag idty (fun _ x => Ret (conceal x)) t2 (fun _ x => Ret (conceal x)) CT) v = Ret h /\
            commit_id md (derive_conceal tag idty (fun _ x => Ret (conceal x)) t2 (fun _ x => Ret (conceal x)) CT) (conceal v) = Ret h /\
            h = HASH (s_pre tag (enc CT (conceal v))).
Proof.
  intros Q I. exists (HASH (s_pre tag (enc CT (conceal v)))). unfold commit_id.
  rewrite (derive_conceal_commit md tag idty _ t2 _ CT f v (conceal v) (conceal (conceal v)) Q eq_refl eq_refl).
  rewrite (derive_conceal_commit md tag idty _ t2 _ CT f (conceal v) (conceal (conceal v)) (conceal (conceal (conceal v))) Q eq_refl eq_refl).
  rewrite !I. cbn [bind]. rewrite one_step_id. auto.
Qed.

(** ** ReservedBytes *)
Lemma reserved_lawful len val : lawful (c_reserved len val) (fun a => a = repeat val len).
Proof.
  split.
  - intros a r ->. cbn [dec c_reserved enc].
    assert (T : take len (repeat val len ++ r) = Some (repeat val len, r)).
    { apply take_spec. split; [reflexivity|apply repeat_length]. }
    rewrite T. unfold reserved_default.
    replace (bytes_eqb (repeat val len) (repeat val len)) with true; [reflexivity|].
    symmetry. apply bytes_eqb_eq. reflexivity.
  - intros l a r. cbn [dec c_reserved enc]. destruct (take len l) as [[a' r']|] eqn:E; [|discriminate].
    destruct (bytes_eqb a' (reserved_default len val)) eqn:E2; [|discriminate]. intros X; injection X as -> ->.
    apply take_spec in E as [-> _]. apply bytes_eqb_eq in E2. auto.
Qed.
Lemma reserved_dec_iff len val l : (exists x, dec (c_reserved len val) l = Some x) <->
  exists r, l = repeat val len ++ r.
Proof.
  split.
  - intros [[a r] E]. apply (law_can _ _ (reserved_lawful len val)) in E as [-> ->]. eexists; reflexivity.
  - intros [r ->]. eexists. apply (law_rt _ _ (reserved_lawful len val)). reflexivity.
Qed.
Lemma reserved_from_iff len val v : 
  (v = repeat val len -> reserved_from len val v = Ret v) /\
  (v <> repeat val len -> reserved_from len val v = Panic PAssert).
Proof.
  unfold reserved_from, assert. split; intros E.
  - replace (bytes_eqb v (repeat val len)) with true; [reflexivity|]. symmetry. apply bytes_eqb_eq. exact E.
  - destruct (bytes_eqb v (repeat val len)) eqn:X; [|reflexivity]. apply bytes_eqb_eq in X. contradiction.
Qed.
Lemma reserved_commit len val md v :
  commit_id md (ce_reserved len val) v = Ret (HASH (s_pre (str "urn:ubideco:strict-types:value-hash#2024-02-10") v)).
Proof.
  change (ce_reserved len val) with
    (derive_strict strict_hash_tag (named "StrictHash") (Typed (named "ReservedBytes") (c_reserved len val))).
  unfold commit_id.
  rewrite (derive_strict_commit md _ _ (Typed (named "ReservedBytes") (c_reserved len val)) (Fqn lib_commit_verify "ReservedBytes") v (named_fqn "ReservedBytes"))
    by (intros _; apply not_reserved; discriminate).
  cbn [bind]. rewrite one_step_id. reflexivity.
Qed.

End WithHash.
