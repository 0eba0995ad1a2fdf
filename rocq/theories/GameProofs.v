(** Lemmas for C92: counting tables. *)
From Verif Require Import Base BaseFacts SpecHash CountProofs SpecGame.
Local Open Scope nat_scope.

Lemma length_split {A} (g : A -> bool) l : length l = length (filter g l) + length (filter (fun x => negb (g x)) l).
Proof. induction l as [|x l IH]; [reflexivity|]. cbn. destruct (g x); cbn; lia. Qed.

(** Splitting by the value of a function *)
Lemma split_sum (val : list bytes32 -> bytes32) (c : bytes32 -> N) (m : N) S : forall B,
  (forall f, In f B -> In (val f) S) ->
  (forall a B', In a S -> incl B' B -> NoDup B' -> (forall f, In f B' -> val f = a) -> m * N.of_nat (length B') <= c a)%N ->
  NoDup B ->
  (m * N.of_nat (length B) <= fold_right (fun a x => c a + x) 0 S)%N.
Proof.
  induction S as [|a S IH]; intros B V C ND.
  - destruct B as [|f B]; [cbn; lia|]. destruct (V f (or_introl eq_refl)).
  - set (g := fun f => b32_eqb (val f) a).
    rewrite (length_split g B), Nat2N.inj_add, N.mul_add_distr_l. cbn [fold_right]. apply N.add_le_mono.
    + apply C; [left; reflexivity|intros f I; apply filter_In in I; tauto|apply NoDup_filter, ND|].
      intros f I. apply filter_In in I as [_ I]. apply b32_eqb_eq. exact I.
    + apply IH.
      * intros f I. apply filter_In in I as [I G]. destruct (V f I) as [E|J]; [|exact J].
        unfold g in G. rewrite <- E in G. destruct (b32_eqb a a) eqn:R; [discriminate|]. apply b32_eqb_neq in R. congruence.
      * intros a' B' I' J N' E. apply C; [right; exact I'| |exact N'|exact E]. intros f I. apply J, filter_In in I. tauto.
      * apply NoDup_filter, ND.
Qed.

Lemma sum_const (c : N) S : fold_right (fun (a : bytes32) x => (c + x)%N) 0%N S = (N.of_nat (length S) * c)%N.
Proof. induction S as [|a S IH]; [reflexivity|]. cbn [fold_right length]. rewrite IH, Nat2N.inj_succ. lia. Qed.

Lemma sum_two (c d : N) (X S : list bytes32) : NoDup S ->
  (fold_right (fun a x => (if in_dec b32_eq_dec a X then c else d) + x) 0 S <= N.of_nat (length X) * c + N.of_nat (length S) * d)%N.
Proof.
  intros ND.
  assert (L : (fold_right (fun a x => (if in_dec b32_eq_dec a X then c else d) + x) 0 S <=
    N.of_nat (length (filter (fun a => if in_dec b32_eq_dec a X then true else false) S)) * c + N.of_nat (length S) * d)%N).
  { clear ND. induction S as [|a S IH]; [cbn; lia|]. cbn [fold_right filter length]. rewrite (Nat2N.inj_succ (length S)).
    destruct (in_dec b32_eq_dec a X); [cbn [length]; rewrite Nat2N.inj_succ|]; lia. }
  assert (K : length (filter (fun a => if in_dec b32_eq_dec a X then true else false) S) <= length X).
  { apply NoDup_incl_length; [apply NoDup_filter, ND|]. intros a I. apply filter_In in I as [_ I].
    destruct (in_dec b32_eq_dec a X); [assumption|discriminate]. }
  eapply N.le_trans; [exact L|]. apply N.add_le_mono_r, N.mul_le_mono_r. lia.
Qed.

Lemma table_ext U : forall f g, NoDup U -> length f = length U -> length g = length U ->
  (forall u, In u U -> table U f u = table U g u) -> f = g.
Proof.
  induction U as [|u U IH]; intros [|a f] [|b g] ND; cbn [length]; intros Lf Lg E; try discriminate; [reflexivity|].
  inversion ND as [|? ? NI ND']; subst. f_equal.
  - specialize (E u (or_introl eq_refl)). cbn [table] in E. replace (bytes_eqb u u) with true in E by (symmetry; apply bytes_eqb_eq; reflexivity). exact E.
  - apply IH; [exact ND'|lia|lia|]. intros v I. specialize (E v (or_intror I)). cbn [table] in E.
    destruct (bytes_eqb u v) eqn:X; [apply bytes_eqb_eq in X; congruence|exact E].
Qed.

Definition extends (U : list (list byte)) (T : list (list byte * bytes32)) (f : list bytes32) : Prop :=
  forall s a, In (s, a) T -> table U f s = a.

Lemma NoDup_one {A} (B : list A) : NoDup B -> (forall x y, In x B -> In y B -> x = y) -> length B <= 1.
Proof.
  intros ND E. destruct B as [|x [|y B]]; cbn; [lia|lia|]. exfalso. inversion ND as [|? ? NI _]; subst. apply NI. left.
  apply E; cbn; tauto.
Qed.

Lemma cap U rest : NoDup U -> forall T B,
  (forall u, In u U -> In u rest \/ exists a, In (u, a) T) -> NoDup B ->
  (forall f, In f B -> length f = length U /\ extends U T f) ->
  (N.of_nat (length B) <= 2 ^ (256 * N.of_nat (length rest)))%N.
Proof.
  intros NU. destruct all_ids as (S & SN & SI & SL). induction rest as [|s rest IH]; intros T B CV NB HB.
  - cbn [length]. change (2 ^ (256 * N.of_nat 0))%N with 1%N. assert (X : length B <= 1); [|lia].
    apply NoDup_one; [exact NB|]. intros f g If Ig. destruct (HB f If) as [Lf Ef], (HB g Ig) as [Lg Eg].
    apply (table_ext U); try assumption. intros u Iu. destruct (CV u Iu) as [[]|[a Ia]]. rewrite (Ef _ _ Ia), (Eg _ _ Ia). reflexivity.
  - cbn [length]. rewrite Nat2N.inj_succ, N.mul_succ_r, N.pow_add_r.
    pose proof (split_sum (fun f => table U f s) (fun _ => 2 ^ (256 * N.of_nat (length rest)))%N 1 S B) as X.
    cbv beta in X. rewrite sum_const, SL, N.mul_1_l in X. rewrite N.mul_comm. apply X; [intros; apply SI| |exact NB].
    intros a B' _ I N' E. rewrite N.mul_1_l. apply (IH ((s, a) :: T)); [|exact N'|].
    + intros u Iu. destruct (CV u Iu) as [[<-|Ir]|[b Ib]]; [right; exists a; left; reflexivity|left; exact Ir|right; exists b; right; exact Ib].
    + intros f If. destruct (HB f (I f If)) as [L Ex]. split; [exact L|]. intros t b [X'|It]; [injection X' as <- <-; apply E, If|apply Ex, It].
Qed.

(** Questions and their answers so far are [T]; [rest] was not asked. *)
Lemma birthday U n : (forall s, length s <= n -> In s U) -> NoDup U -> forall A (p : prog A) q T rest B,
  modest n q p -> NoDup (map snd T) -> 
  (forall u, In u U -> In u rest \/ exists a, In (u, a) T) -> NoDup B ->
  (forall f, In f B -> length f = length U /\ extends U T f /\
     @collision_in (table U f) (map fst T ++ asked (table U f) p)) ->
  (2 * 2 ^ 256 * N.of_nat (length B) <=
   (N.of_nat q * N.of_nat (q - 1) + 2 * N.of_nat (length T) * N.of_nat q) * 2 ^ (256 * N.of_nat (length rest)))%N.
Proof.
  intros AU NU A p. destruct all_ids as (S & SN & SI & SL). induction p as [a|s k IH]; intros q T rest B M NT CV NB HB.
  - replace B with (@nil (list bytes32)); [cbn; lia|]. destruct B as [|f B]; [reflexivity|exfalso].
    destruct (HB f (or_introl eq_refl)) as [_ [Ex (x & y & Ix & Iy & N & E)]]. cbn [asked] in Ix, Iy. rewrite app_nil_r in Ix, Iy.
    apply in_map_iff in Ix as [[x' a1] [<- Ix]], Iy as [[y' a2] [<- Iy]]. cbn [fst] in *.
    change (@HASH (table U f)) with (table U f) in E. rewrite (Ex _ _ Ix), (Ex _ _ Iy) in E. subst a2.
    apply N. clear - NT Ix Iy. induction T as [|[z b] T IHT]; [destruct Ix|]. cbn in NT. inversion NT as [|? ? NI NT']; subst.
    destruct Ix as [Ix|Ix], Iy as [Iy|Iy].
    + congruence.
    + injection Ix as <- <-. destruct NI. apply in_map_iff. exists (y', b). auto.
    + injection Iy as <- <-. destruct NI. apply in_map_iff. exists (x', b). auto.
    + auto.
  - destruct q as [|q]; [destruct M|]. destruct M as [Ls M]. pose proof (AU s Ls) as Is.
    destruct (in_dec (list_eq_dec Byte.byte_eq_dec) s (map fst T)) as [D|D].
    + (* asked before *)
      apply in_map_iff in D as [[s' a] [E D]]. cbn in E. subst s'.
      eapply N.le_trans; [apply (IH a q T rest B); try assumption; [apply M|]|].
      * intros f If. destruct (HB f If) as [L [Ex (x & y & Ix & Iy & N & E)]]. split; [exact L|split; [exact Ex|]].
        exists x, y. cbn [asked] in Ix, Iy. rewrite (Ex _ _ D) in Ix, Iy.
        assert (W : forall z, In z (map fst T ++ s :: asked (table U f) (k a)) -> In z (map fst T ++ asked (table U f) (k a))).
        { intros z. rewrite !in_app_iff. intros [Z|[<-|Z]]; [tauto| |tauto]. left. apply in_map_iff. exists (s, a). auto. }
        split; [apply W, Ix|split; [apply W, Iy|split; assumption]].
      * apply N.mul_le_mono_r. replace (Datatypes.S q - 1) with q by lia. rewrite Nat2N.inj_succ. set (Q := N.of_nat q). assert (N.of_nat (q - 1) <= Q)%N by (unfold Q; lia). nia.
    + (* new *)
      destruct (CV s Is) as [Ir|[a Ia]]; [|destruct D; apply in_map_iff; exists (s, a); auto].
      apply in_split in Ir as (r1 & r2 & ->).
      assert (CVa : forall a u, In u U -> In u (r1 ++ r2) \/ exists b, In (u, b) ((s, a) :: T)).
      { intros a u Iu. destruct (CV u Iu) as [I|[b Ib]]; [|right; exists b; right; exact Ib].
        apply in_app_or in I as [I|[<-|I]]; [left; apply in_or_app; tauto|right; exists a; left; reflexivity|left; apply in_or_app; tauto]. }
      set (P := (2 ^ (256 * N.of_nat (length (r1 ++ r2))))%N).
      assert (LR : (2 ^ (256 * N.of_nat (length (r1 ++ s :: r2))) = P * 2 ^ 256)%N).
      { unfold P. rewrite <- N.pow_add_r. f_equal. rewrite !app_length. cbn [length]. lia. }
      rewrite LR.
      pose proof (split_sum (fun f => table U f s)
        (fun a => if in_dec b32_eq_dec a (map snd T) then 2 * 2 ^ 256 * P
                  else (N.of_nat q * N.of_nat (q - 1) + 2 * N.of_nat (length ((s, a) :: T)) * N.of_nat q) * P)%N
        (2 * 2 ^ 256)%N S B) as X.
      cbn [length] in X.
      eapply N.le_trans; [apply X; [intros; apply SI| |exact NB]|].
      * intros a B' _ I N' E. destruct (in_dec b32_eq_dec a (map snd T)) as [Da|Da].
        -- apply N.mul_le_mono_l. apply (cap U (r1 ++ r2) NU ((s, a) :: T)); [apply CVa|exact N'|].
           intros f If. destruct (HB f (I f If)) as [L [Ex _]]. split; [exact L|].
           intros t b [Q|It]; [injection Q as <- <-; apply E, If|apply Ex, It].
        -- unfold P. change (Datatypes.S (length T)) with (length ((s, a) :: T)).
           apply (IH a q ((s, a) :: T) (r1 ++ r2) B'); [apply M|cbn; constructor; assumption|apply CVa|exact N'|].
           intros f If. destruct (HB f (I f If)) as [L [Ex C]]. split; [exact L|split].
           ++ intros t b [Q|It]; [injection Q as <- <-; apply E, If|apply Ex, It].
           ++ destruct C as (x & y & Ix & Iy & N & C). exists x, y. cbn [asked map fst] in *. rewrite (E f If) in Ix, Iy.
              assert (W : forall z, In z (map fst T ++ s :: asked (table U f) (k a)) -> In z (s :: map fst T ++ asked (table U f) (k a))).
              { intros z. cbn [In]. rewrite !in_app_iff. cbn [In]. tauto. }
              split; [apply W, Ix|split; [apply W, Iy|split; assumption]].
      * eapply N.le_trans; [apply (sum_two (2 * 2 ^ 256 * P)%N
          ((N.of_nat q * N.of_nat (q - 1) + 2 * N.of_nat (Datatypes.S (length T)) * N.of_nat q) * P)%N (map snd T) S SN)|].
        rewrite SL, map_length. set (R := (2 ^ 256)%N). replace (Datatypes.S q - 1) with q by lia.
        rewrite !Nat2N.inj_succ. set (K := N.of_nat (length T)). set (Q := N.of_nat q).
        replace (N.of_nat (q - 1)) with (Q - 1)%N by (unfold Q; lia). clearbody R K Q P.
        destruct (N.eq_dec Q 0) as [->|]; [lia|]. assert (QQ : (Q = N.succ (Q - 1))%N) by lia. set (Q1 := (Q - 1)%N) in *. rewrite QQ. clearbody Q1.
        rewrite <- !N.add_1_r. apply N.eq_le_incl. ring.
Qed.
