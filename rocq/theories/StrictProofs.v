(** Codec laws: round trip and canonicity for every combinator, hence for every
    data type. *)
From Verif Require Import Base BaseFacts OrdMap OrdMapFacts Strict.
From Verif Require Import SpecCodec.


Definition any {A : Type} : A -> Prop := fun _ => True.

Lemma lawful_iff {A} (c : codec A) (v w : A -> Prop) :
  lawful c v -> (forall a, v a <-> w a) -> lawful c w.
Proof.
  intros [R C] E. split.
  - intros a r Hw. apply R, E, Hw.
  - intros l a r H. apply C in H as [H1 H2]. split; [exact H1|apply E, H2].
Qed.

Lemma lawful_inj {A} (c : codec A) v a b r s :
  lawful c v -> v a -> v b -> enc c a ++ r = enc c b ++ s -> a = b /\ r = s.
Proof.
  intros L Va Vb E. pose proof (law_rt _ _ L a r Va) as H1.
  rewrite E, (law_rt _ _ L b s Vb) in H1. injection H1 as -> ->. split; reflexivity.
Qed.
Lemma lawful_enc_inj {A} (c : codec A) v a b :
  lawful c v -> v a -> v b -> enc c a = enc c b -> a = b.
Proof.
  intros L Va Vb E. apply (lawful_inj c v a b [] [] L Va Vb). rewrite E. reflexivity.
Qed.

Lemma c_byte_lawful : lawful c_byte any.
Proof.
  split; cbn.
  - intros a r _. reflexivity.
  - intros [|b l] a r H; [discriminate|]. injection H as -> ->. split; [reflexivity|exact I].
Qed.

Lemma take_spec k l a r : take k l = Some (a, r) <-> l = a ++ r /\ length a = k.
Proof.
  unfold take. destruct (k <=? length l) eqn:E.
  - apply Nat.leb_le in E. split.
    + intros H. injection H as <- <-. split; [symmetry; apply firstn_skipn|].
      apply firstn_length_le. exact E.
    + intros [-> <-]. rewrite firstn_app, skipn_app, Nat.sub_diag, firstn_all, skipn_all.
      cbn. rewrite app_nil_r. reflexivity.
  - apply Nat.leb_gt in E. split; [discriminate|]. intros [-> <-].
    rewrite app_length in E. lia.
Qed.

Lemma c_le_lawful k : lawful (c_le k) (fun v => (v < 256 ^ N.of_nat k)%N).
Proof.
  split; cbn.
  - intros a r Ha. destruct (take k (le k a ++ r)) as [[x y]|] eqn:E.
    + apply take_spec in E as [E1 E2]. apply app_inv_length in E1 as [<- <-].
      * rewrite le_val_le, N.mod_small by exact Ha. reflexivity.
      * rewrite le_length, E2. reflexivity.
    + exfalso. assert (H : take k (le k a ++ r) = Some (le k a, r)).
      { apply take_spec. split; [reflexivity|apply le_length]. } congruence.
  - intros l a r. destruct (take k l) as [[x y]|] eqn:E; [|discriminate].
    intros H. injection H as <- <-. apply take_spec in E as [-> <-].
    rewrite le_of_val. split; [reflexivity|apply le_val_bound].
Qed.

Lemma c_b32_lawful : lawful c_b32 any.
Proof.
  split; cbn.
  - intros a r _. replace (take 32 (b32 a ++ r)) with (Some (b32 a, r)).
    + rewrite b32_of_b32. reflexivity.
    + symmetry. apply take_spec. split; [reflexivity|apply b32_length].
  - intros l a r. destruct (take 32 l) as [[x y]|] eqn:E; [|discriminate].
    destruct (b32_of x) as [b|] eqn:Eb; [|discriminate].
    intros H. injection H as -> ->. apply take_spec in E as [-> _]. apply b32_of_inv in Eb.
    subst x. split; [reflexivity|exact I].
Qed.

Lemma c_iso_lawful {A B} (c : codec A) v (f : A -> B) (g : B -> A) :
  lawful c v -> (forall a, g (f a) = a) -> (forall b, f (g b) = b) ->
  lawful (c_iso c f g) (fun b => v (g b)).
Proof.
  intros L GF FG. split; cbn.
  - intros b r Hv. rewrite (law_rt _ _ L) by exact Hv. rewrite FG. reflexivity.
  - intros l b r. destruct (dec c l) as [[a r']|] eqn:E; [|discriminate].
    intros H. injection H as <- <-. rewrite GF. apply (law_can _ _ L). exact E.
Qed.

Lemma c_part_lawful {A B} (c : codec A) v w (f : A -> option B) (g : B -> A) :
  lawful c v ->
  (forall a b, v a -> f a = Some b -> g b = a /\ w b) ->
  (forall b, w b -> f (g b) = Some b /\ v (g b)) ->
  lawful (c_part c f g) w.
Proof.
  intros L FG GF. split; cbn.
  - intros b r Hw. destruct (GF b Hw) as [E Hv]. rewrite (law_rt _ _ L) by exact Hv.
    rewrite E. reflexivity.
  - intros l b r. destruct (dec c l) as [[a r']|] eqn:E; [|discriminate].
    apply (law_can _ _ L) in E as [-> Hv]. destruct (f a) as [b'|] eqn:Ef; [|discriminate].
    intros H. injection H as <- <-. destruct (FG a b' Hv Ef) as [<- Hw]. split; [reflexivity|exact Hw].
Qed.

Lemma c_check_lawful {A} (c : codec A) v p :
  lawful c v -> lawful (c_check c p) (fun a => v a /\ p a = true).
Proof.
  intros L. apply (c_part_lawful c v); [exact L| |].
  - intros a b Hv. destruct (p a) eqn:E; [|discriminate]. intros H. injection H as <-.
    repeat split; assumption.
  - intros b [Hv E]. rewrite E. split; [reflexivity|exact Hv].
Qed.

Lemma c_u5_lawful : lawful c_u5 (fun d => d <= 31).
Proof.
  apply (c_part_lawful _ _ _ _ _ (c_le_lawful 1)).
  - intros a b _. destruct (a <? 32)%N eqn:E; [|discriminate]. apply N.ltb_lt in E.
    intros H. injection H as <-. rewrite N2Nat.id. split; [reflexivity|]. lia.
  - intros b Hb. replace (N.of_nat b <? 32)%N with true by (symmetry; apply N.ltb_lt; lia).
    rewrite Nat2N.id. split; [reflexivity|]. change (256 ^ N.of_nat 1)%N with 256%N. lia.
Qed.

Lemma c_pair_lawful {A B} (ca : codec A) (cb : codec B) va vb :
  lawful ca va -> lawful cb vb ->
  lawful (c_pair ca cb) (fun p => va (fst p) /\ vb (snd p)).
Proof.
  intros LA LB. split; cbn.
  - intros [a b] r [Ha Hb]; cbn in *. rewrite <- app_assoc.
    rewrite (law_rt _ _ LA) by exact Ha. rewrite (law_rt _ _ LB) by exact Hb. reflexivity.
  - intros l [a b] r. destruct (dec ca l) as [[a' r1]|] eqn:E1; [|discriminate].
    destruct (dec cb r1) as [[b' r2]|] eqn:E2; [|discriminate].
    intros H. injection H as -> -> ->. apply (law_can _ _ LA) in E1 as [-> Ha].
    apply (law_can _ _ LB) in E2 as [-> Hb]. cbn. rewrite app_assoc.
    repeat split; assumption.
Qed.

Lemma c_sum_lawful {A B} ta tb (ca : codec A) (cb : codec B) va vb :
  ta <> tb -> lawful ca va -> lawful cb vb ->
  lawful (c_sum ta tb ca cb) (fun s => match s with inl a => va a | inr b => vb b end).
Proof.
  intros N LA LB. split; cbn.
  - intros [a|b] r Hv; cbn.
    + rewrite byte_eqb_refl, (law_rt _ _ LA) by exact Hv. reflexivity.
    + destruct (Byte.eqb tb ta) eqn:E; [apply byte_eqb_eq in E; congruence|].
      rewrite byte_eqb_refl, (law_rt _ _ LB) by exact Hv. reflexivity.
  - intros [|t l] s r; [discriminate|].
    destruct (Byte.eqb t ta) eqn:E1; [|destruct (Byte.eqb t tb) eqn:E2; [|discriminate]].
    + apply byte_eqb_eq in E1; subst t. destruct (dec ca l) as [[a r1]|] eqn:E; [|discriminate].
      intros H. injection H as <- <-. apply (law_can _ _ LA) in E as [-> Ha].
      split; [reflexivity|exact Ha].
    + apply byte_eqb_eq in E2; subst t. destruct (dec cb l) as [[a r1]|] eqn:E; [|discriminate].
      intros H. injection H as <- <-. apply (law_can _ _ LB) in E as [-> Ha].
      split; [reflexivity|exact Ha].
Qed.

Lemma c_unit_lawful : lawful c_unit any.
Proof.
  split; cbn; [intros [] r _; reflexivity|].
  intros l [] r H. injection H as ->. split; [reflexivity|exact I].
Qed.

Lemma c_option_lawful {A} (c : codec A) v :
  lawful c v -> lawful (c_option c) (fun o => match o with None => True | Some a => v a end).
Proof.
  intros L. eapply lawful_iff.
  - apply c_iso_lawful.
    + apply (c_sum_lawful x00 x01 c_unit c any v); [discriminate|apply c_unit_lawful|exact L].
    + intros [[]|a]; reflexivity.
    + intros [a|]; reflexivity.
  - intros [a|]; cbn; unfold any; tauto.
Qed.

Lemma dec_items_rt {A} (c : codec A) v x r :
  lawful c v -> Forall v x -> dec_items c (length x) (flat_map (enc c) x ++ r) = Some (x, r).
Proof.
  intros L. induction 1 as [|a x Ha Hx IH]; cbn; [reflexivity|].
  rewrite <- app_assoc, (law_rt _ _ L) by exact Ha. rewrite IH. reflexivity.
Qed.
Lemma dec_items_can {A} (c : codec A) v n l x r :
  lawful c v -> dec_items c n l = Some (x, r) ->
  l = flat_map (enc c) x ++ r /\ Forall v x /\ length x = n.
Proof.
  intros L. revert l x r; induction n as [|n IH]; cbn; intros l x r H.
  - injection H as <- <-. repeat split. constructor.
  - destruct (dec c l) as [[a r1]|] eqn:E; [|discriminate].
    destruct (dec_items c n r1) as [[y r2]|] eqn:E2; [|discriminate].
    injection H as <- <-. apply (law_can _ _ L) in E as [-> Ha].
    apply IH in E2 as [-> [HF HL]]. cbn. rewrite <- app_assoc, HL.
    repeat split. constructor; assumption.
Qed.

Definition vec_valid {A} (min max : N) (v : A -> Prop) (x : list A) : Prop :=
  (min <= N.of_nat (length x) <= max)%N /\ Forall v x.

Lemma c_vec_lawful {A} k min max (c : codec A) v :
  (max < 256 ^ N.of_nat k)%N -> lawful c v -> lawful (c_vec k min max c) (vec_valid min max v).
Proof.
  intros HM L. pose proof (c_le_lawful k) as LL. split.
  - intros x r [[H1 H2] HF]. cbn [enc dec c_vec]. change (le k) with (enc (c_le k)).
    rewrite <- app_assoc, (law_rt _ _ LL) by lia.
    replace (min <=? N.of_nat (length x))%N with true by (symmetry; apply N.leb_le; lia).
    replace (N.of_nat (length x) <=? max)%N with true by (symmetry; apply N.leb_le; lia).
    cbn [andb]. rewrite Nat2N.id. eapply dec_items_rt; eassumption.
  - intros l x r. cbn [enc dec c_vec]. change (dec (c_le k) l) with (dec (c_le k) l).
    destruct (dec (c_le k) l) as [[n r1]|] eqn:E; [|discriminate].
    destruct ((min <=? n) && (n <=? max))%N eqn:E2; [|discriminate]. intros H.
    apply (law_can _ _ LL) in E as [-> Hn]. apply andb_true_iff in E2 as [G1 G2].
    apply N.leb_le in G1, G2.
    destruct (dec_items_can c v _ _ _ _ L H) as [-> [HF HL]].
    rewrite HL, N2Nat.id. change (enc (c_le k)) with (le k). rewrite <- app_assoc. split; [reflexivity|].
    split; [|exact HF]. rewrite HL, N2Nat.id. split; assumption.
Qed.

Lemma c_omap_lawful {K V} k min max ltb (ck : codec K) (cv : codec V) vk vv :
  (max < 256 ^ N.of_nat k)%N -> lawful ck vk -> lawful cv vv ->
  lawful (c_omap k min max ltb ck cv)
    (fun m => vec_valid min max (fun p => vk (fst p) /\ vv (snd p)) m /\ om_sorted ltb m = true).
Proof.
  intros HM LK LV. unfold c_omap. apply c_check_lawful. apply c_vec_lawful; [exact HM|].
  apply c_pair_lawful; assumption.
Qed.
