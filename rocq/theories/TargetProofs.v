(** Lemmas for C105: collisions with strings hashed beforehand. *)
From Verif Require Import Base BaseFacts SpecHash CountProofs SpecGame GameProofs.
Local Open Scope nat_scope.

Lemma same_answer (T : list (list byte * bytes32)) x y a : NoDup (map snd T) -> In (x, a) T -> In (y, a) T -> x = y.
Proof.
  intros NT Ix Iy. induction T as [|[z b] T IHT]; [destruct Ix|]. cbn in NT. inversion NT as [|? ? NI NT']; subst.
  destruct Ix as [Ix|Ix], Iy as [Iy|Iy].
  - congruence.
  - injection Ix as <- <-. destruct NI. apply in_map_iff. exists (y, b). auto.
  - injection Iy as <- <-. destruct NI. apply in_map_iff. exists (x, b). auto.
  - auto.
Qed.

(** Strings of [T] were asked first, those of [V] later; [rest] was not asked. *)
Lemma aimed U n : (forall s, length s <= n -> In s U) -> NoDup U -> forall T A (p : prog A) q V rest B,
  modest n q p -> NoDup (map snd T) -> (forall a, In a (map snd T) -> ~ In a (map snd V)) ->
  (forall u, In u U -> In u rest \/ exists a, In (u, a) (T ++ V)) -> NoDup B ->
  (forall f, In f B -> length f = length U /\ extends U (T ++ V) f /\
     exists x y, In x (map fst T) /\ In y (map fst (T ++ V) ++ asked (table U f) p) /\ x <> y /\ table U f x = table U f y) ->
  (2 ^ 256 * N.of_nat (length B) <= N.of_nat (length T) * N.of_nat q * 2 ^ (256 * N.of_nat (length rest)))%N.
Proof.
  intros AU NU T A p. destruct all_ids as (S & SN & SI & SL). induction p as [a|s k IH]; intros q V rest B M NT TV CV NB HB.
  - replace B with (@nil (list bytes32)); [cbn; lia|]. destruct B as [|f B]; [reflexivity|exfalso].
    destruct (HB f (or_introl eq_refl)) as [_ [Ex (x & y & Ix & Iy & N & E)]]. cbn [asked] in Iy. rewrite app_nil_r in Iy.
    apply in_map_iff in Ix as [[x' a1] [<- Ix]], Iy as [[y' a2] [<- Iy]]. cbn [fst] in *.
    rewrite (Ex x' a1 (in_or_app _ _ _ (or_introl Ix))), (Ex y' a2 Iy) in E. subst a2.
    apply in_app_or in Iy as [Iy|Iy].
    + apply N. eapply same_answer; eassumption.
    + apply (TV a1); apply in_map_iff; [exists (x', a1)|exists (y', a1)]; auto.
  - destruct q as [|q]; [destruct M|]. destruct M as [Ls M]. pose proof (AU s Ls) as Is.
    destruct (in_dec (list_eq_dec Byte.byte_eq_dec) s (map fst (T ++ V))) as [D|D].
    + (* asked before *)
      apply in_map_iff in D as [[s' a] [E D]]. cbn in E. subst s'.
      eapply N.le_trans; [apply (IH a q V rest B); try assumption; [apply M|]|].
      * intros f If. destruct (HB f If) as [L [Ex (x & y & Ix & Iy & N & E)]]. split; [exact L|split; [exact Ex|]].
        exists x, y. cbn [asked] in Iy. rewrite (Ex _ _ D) in Iy.
        split; [exact Ix|split; [|split; assumption]]. revert Iy. rewrite !in_app_iff. intros [Z|[<-|Z]]; [tauto| |tauto].
        left. apply in_map_iff. exists (s, a). auto.
      * rewrite Nat2N.inj_succ. apply N.mul_le_mono_r, N.mul_le_mono_l. lia.
    + (* new *)
      destruct (CV s Is) as [Ir|[a Ia]]; [|destruct D; apply in_map_iff; exists (s, a); auto].
      apply in_split in Ir as (r1 & r2 & ->).
      assert (CVa : forall a u, In u U -> In u (r1 ++ r2) \/ exists b, In (u, b) (T ++ (s, a) :: V)).
      { intros a u Iu. destruct (CV u Iu) as [I|[b Ib]].
        - apply in_app_or in I as [I|[<-|I]]; [left; apply in_or_app; tauto| |left; apply in_or_app; tauto].
          right; exists a. apply in_or_app. right. left. reflexivity.
        - right. exists b. apply in_app_or in Ib as [Ib|Ib]; apply in_or_app; [left; exact Ib|right; right; exact Ib]. }
      assert (EXa : forall a f, extends U (T ++ V) f -> table U f s = a -> extends U (T ++ (s, a) :: V) f).
      { intros a f Ex E t b I. apply in_app_or in I as [I|[I|I]];
          [apply Ex, in_or_app; left; exact I|injection I as <- <-; exact E|apply Ex, in_or_app; right; exact I]. }
      set (P := (2 ^ (256 * N.of_nat (length (r1 ++ r2))))%N).
      assert (LR : (2 ^ (256 * N.of_nat (length (r1 ++ s :: r2))) = P * 2 ^ 256)%N).
      { unfold P. rewrite <- N.pow_add_r. f_equal. rewrite !app_length. cbn [length]. lia. }
      rewrite LR.
      pose proof (split_sum (fun f => table U f s)
        (fun a => if in_dec b32_eq_dec a (map snd T) then 2 ^ 256 * P else N.of_nat (length T) * N.of_nat q * P)%N
        (2 ^ 256)%N S B) as X.
      eapply N.le_trans; [apply X; [intros; apply SI| |exact NB]|].
      * intros a B' _ I N' E. destruct (in_dec b32_eq_dec a (map snd T)) as [Da|Da].
        -- apply N.mul_le_mono_l. apply (cap U (r1 ++ r2) NU (T ++ (s, a) :: V)); [apply CVa|exact N'|].
           intros f If. destruct (HB f (I f If)) as [L [Ex _]]. split; [exact L|apply EXa; [exact Ex|apply E, If]].
        -- unfold P. apply (IH a q ((s, a) :: V) (r1 ++ r2) B'); [apply M|exact NT| |apply CVa|exact N'|].
           ++ intros b Ib [<-|Jb]; [contradiction|exact (TV b Ib Jb)].
           ++ intros f If. destruct (HB f (I f If)) as [L [Ex C]]. split; [exact L|split; [apply EXa; [exact Ex|apply E, If]|]].
              destruct C as (x & y & Ix & Iy & N & C). exists x, y. cbn [asked] in Iy. rewrite (E f If) in Iy.
              split; [exact Ix|split; [|split; assumption]]. revert Iy. rewrite !map_app. cbn [map fst]. rewrite !in_app_iff. cbn [In]. tauto.
      * eapply N.le_trans; [apply (sum_two (2 ^ 256 * P)%N (N.of_nat (length T) * N.of_nat q * P)%N (map snd T) S SN)|].
        rewrite SL, map_length, Nat2N.inj_succ. set (R := (2 ^ 256)%N). rewrite <- N.add_1_r. apply N.eq_le_incl. ring.
Qed.

(** First [p], then [r] *)
Lemma two_stages U n : (forall s, length s <= n -> In s U) -> NoDup U -> forall A C (r : A -> prog C) q, (forall a, modest n q (r a)) ->
  forall (p : prog A) j T rest B,
  modest n j p -> NoDup (map snd T) -> (forall u, In u U -> In u rest \/ exists a, In (u, a) T) -> NoDup B ->
  (forall f, In f B -> length f = length U /\ extends U T f /\
     exists x y, In x (map fst T ++ asked (table U f) p) /\
       In y (map fst T ++ asked (table U f) p ++ asked (table U f) (r (exec (table U f) p))) /\ x <> y /\ table U f x = table U f y) ->
  (2 * 2 ^ 256 * N.of_nat (length B) <=
   (N.of_nat j * N.of_nat (j - 1) + 2 * N.of_nat (length T) * N.of_nat j + 2 * (N.of_nat (length T) + N.of_nat j) * N.of_nat q) *
     2 ^ (256 * N.of_nat (length rest)))%N.
Proof.
  intros AU NU A C r q Mr p. destruct all_ids as (S & SN & SI & SL). induction p as [a|s k IH]; intros j T rest B M NT CV NB HB.
  - assert (X : (2 ^ 256 * N.of_nat (length B) <= N.of_nat (length T) * N.of_nat q * 2 ^ (256 * N.of_nat (length rest)))%N).
    { apply (aimed U n AU NU T C (r a) q [] rest B); try assumption.
      - apply Mr.
      - intros b _ [].
      - rewrite app_nil_r. exact CV.
      - intros f If. destruct (HB f If) as [L [Ex (x & y & Ix & Iy & E)]]. rewrite app_nil_r. split; [exact L|split; [exact Ex|]].
        exists x, y. cbn [asked exec app] in *. rewrite app_nil_r in Ix. auto. }
    set (P := (2 ^ (256 * N.of_nat (length rest)))%N) in *. set (R := (2 ^ 256)%N) in *. clearbody P R.
    replace (2 * R * N.of_nat (length B))%N with (2 * (R * N.of_nat (length B)))%N by ring.
    eapply N.le_trans; [apply N.mul_le_mono_l, X|]. rewrite !N.mul_add_distr_r, N.mul_add_distr_l, !N.mul_add_distr_r. lia.
  - destruct j as [|j]; [destruct M|]. destruct M as [Ls M]. pose proof (AU s Ls) as Is.
    destruct (in_dec (list_eq_dec Byte.byte_eq_dec) s (map fst T)) as [D|D].
    + (* asked before *)
      apply in_map_iff in D as [[s' a] [E D]]. cbn in E. subst s'.
      eapply N.le_trans; [apply (IH a j T rest B); try assumption; [apply M|]|].
      * intros f If. destruct (HB f If) as [L [Ex (x & y & Ix & Iy & N & E)]]. split; [exact L|split; [exact Ex|]].
        exists x, y. cbn [asked exec] in Ix, Iy. rewrite (Ex _ _ D) in Ix, Iy.
        assert (Z : In s (map fst T)) by (apply in_map_iff; exists (s, a); auto).
        split; [|split; [|split; assumption]].
        -- revert Ix. rewrite !in_app_iff. intros [I|[<-|I]]; tauto.
        -- revert Iy. cbn [app]. rewrite !in_app_iff. cbn [In]. rewrite !in_app_iff. intros [I|[<-|I]]; tauto.
      * apply N.mul_le_mono_r. replace (Datatypes.S j - 1) with j by lia. rewrite Nat2N.inj_succ. set (Q := N.of_nat j).
        assert (N.of_nat (j - 1) <= Q)%N by (unfold Q; lia). nia.
    + (* new *)
      destruct (CV s Is) as [Ir|[a Ia]]; [|destruct D; apply in_map_iff; exists (s, a); auto].
      apply in_split in Ir as (r1 & r2 & ->).
      assert (CVa : forall a u, In u U -> In u (r1 ++ r2) \/ exists b, In (u, b) ((s, a) :: T)).
      { intros a u Iu. destruct (CV u Iu) as [I|[b Ib]]; [|right; exists b; right; exact Ib].
        apply in_app_or in I as [I|[<-|I]]; [left; apply in_or_app; tauto|right; exists a; left; reflexivity|left; apply in_or_app; tauto]. }
      set (P := (2 ^ (256 * N.of_nat (length (r1 ++ r2))))%N).
      assert (LR : (2 ^ (256 * N.of_nat (length (r1 ++ s :: r2))) = P * 2 ^ 256)%N).
      { unfold P. rewrite <- N.pow_add_r. f_equal. rewrite !app_length. cbn [length]. lia. }
      rewrite LR.
      pose proof (split_sum (fun f => table U f s)
        (fun a => if in_dec b32_eq_dec a (map snd T) then 2 * 2 ^ 256 * P
                  else (N.of_nat j * N.of_nat (j - 1) + 2 * N.of_nat (length ((s, a) :: T)) * N.of_nat j +
                        2 * (N.of_nat (length ((s, a) :: T)) + N.of_nat j) * N.of_nat q) * P)%N
        (2 * 2 ^ 256)%N S B) as X.
      cbn [length] in X.
      eapply N.le_trans; [apply X; [intros; apply SI| |exact NB]|].
      * intros a B' _ I N' E. destruct (in_dec b32_eq_dec a (map snd T)) as [Da|Da].
        -- apply N.mul_le_mono_l. apply (cap U (r1 ++ r2) NU ((s, a) :: T)); [apply CVa|exact N'|].
           intros f If. destruct (HB f (I f If)) as [L [Ex _]]. split; [exact L|].
           intros t b [Q|It]; [injection Q as <- <-; apply E, If|apply Ex, It].
        -- unfold P. change (Datatypes.S (length T)) with (length ((s, a) :: T)).
           apply (IH a j ((s, a) :: T) (r1 ++ r2) B'); [apply M|cbn; constructor; assumption|apply CVa|exact N'|].
           intros f If. destruct (HB f (I f If)) as [L [Ex Co]]. split; [exact L|split].
           ++ intros t b [Q|It]; [injection Q as <- <-; apply E, If|apply Ex, It].
           ++ destruct Co as (x & y & Ix & Iy & N & Co). exists x, y. cbn [asked exec map fst] in *. rewrite (E f If) in Ix, Iy.
              split; [|split; [|split; assumption]].
              ** revert Ix. cbn [app In]. rewrite !in_app_iff. cbn [In]. tauto.
              ** revert Iy. cbn [app In]. rewrite !in_app_iff. cbn [In]. rewrite !in_app_iff. tauto.
      * eapply N.le_trans; [apply (sum_two (2 * 2 ^ 256 * P)%N
          ((N.of_nat j * N.of_nat (j - 1) + 2 * N.of_nat (Datatypes.S (length T)) * N.of_nat j +
            2 * (N.of_nat (Datatypes.S (length T)) + N.of_nat j) * N.of_nat q) * P)%N (map snd T) S SN)|].
        rewrite SL, map_length. set (R := (2 ^ 256)%N). replace (Datatypes.S j - 1) with j by lia.
        rewrite !Nat2N.inj_succ. set (K := N.of_nat (length T)). set (Q := N.of_nat j). set (Y := N.of_nat q).
        replace (N.of_nat (j - 1)) with (Q - 1)%N by (unfold Q; lia). clearbody R K Q P Y.
        destruct (N.eq_dec Q 0) as [->|]; [lia|]. assert (QQ : (Q = N.succ (Q - 1))%N) by lia. set (Q1 := (Q - 1)%N) in *. rewrite QQ. clearbody Q1.
        rewrite <- !N.add_1_r. apply N.eq_le_incl. ring.
Qed.

(** Answers among the given values *)
Lemma struck U n : (forall s, length s <= n -> In s U) -> NoDup U -> forall cs A (p : prog A) q T rest B,
  modest n q p -> (forall a, In a cs -> ~ In a (map snd T)) ->
  (forall u, In u U -> In u rest \/ exists a, In (u, a) T) -> NoDup B ->
  (forall f, In f B -> length f = length U /\ extends U T f /\
     exists x, In x (map fst T ++ asked (table U f) p) /\ In (table U f x) cs) ->
  (2 ^ 256 * N.of_nat (length B) <= N.of_nat (length cs) * N.of_nat q * 2 ^ (256 * N.of_nat (length rest)))%N.
Proof.
  intros AU NU cs A p. destruct all_ids as (S & SN & SI & SL). induction p as [a|s k IH]; intros q T rest B M NT CV NB HB.
  - replace B with (@nil (list bytes32)); [cbn; lia|]. destruct B as [|f B]; [reflexivity|exfalso].
    destruct (HB f (or_introl eq_refl)) as [_ [Ex (x & Ix & Ic)]]. cbn [asked] in Ix. rewrite app_nil_r in Ix.
    apply in_map_iff in Ix as [[x' a1] [<- Ix]]. cbn [fst] in *. rewrite (Ex _ _ Ix) in Ic. apply (NT a1 Ic).
    apply in_map_iff. exists (x', a1). auto.
  - destruct q as [|q]; [destruct M|]. destruct M as [Ls M]. pose proof (AU s Ls) as Is.
    destruct (in_dec (list_eq_dec Byte.byte_eq_dec) s (map fst T)) as [D|D].
    + apply in_map_iff in D as [[s' a] [E D]]. cbn in E. subst s'.
      eapply N.le_trans; [apply (IH a q T rest B); try assumption; [apply M|]|].
      * intros f If. destruct (HB f If) as [L [Ex (x & Ix & Ic)]]. split; [exact L|split; [exact Ex|]].
        exists x. cbn [asked] in Ix. rewrite (Ex _ _ D) in Ix. split; [|exact Ic].
        assert (Z : In s (map fst T)) by (apply in_map_iff; exists (s, a); auto).
        revert Ix. rewrite !in_app_iff. intros [I|[<-|I]]; tauto.
      * rewrite Nat2N.inj_succ. apply N.mul_le_mono_r, N.mul_le_mono_l. lia.
    + destruct (CV s Is) as [Ir|[a Ia]]; [|destruct D; apply in_map_iff; exists (s, a); auto].
      apply in_split in Ir as (r1 & r2 & ->).
      assert (CVa : forall a u, In u U -> In u (r1 ++ r2) \/ exists b, In (u, b) ((s, a) :: T)).
      { intros a u Iu. destruct (CV u Iu) as [I|[b Ib]]; [|right; exists b; right; exact Ib].
        apply in_app_or in I as [I|[<-|I]]; [left; apply in_or_app; tauto|right; exists a; left; reflexivity|left; apply in_or_app; tauto]. }
      set (P := (2 ^ (256 * N.of_nat (length (r1 ++ r2))))%N).
      assert (LR : (2 ^ (256 * N.of_nat (length (r1 ++ s :: r2))) = P * 2 ^ 256)%N).
      { unfold P. rewrite <- N.pow_add_r. f_equal. rewrite !app_length. cbn [length]. lia. }
      rewrite LR.
      pose proof (split_sum (fun f => table U f s)
        (fun a => if in_dec b32_eq_dec a cs then 2 ^ 256 * P else N.of_nat (length cs) * N.of_nat q * P)%N
        (2 ^ 256)%N S B) as X.
      eapply N.le_trans; [apply X; [intros; apply SI| |exact NB]|].
      * intros a B' _ I N' E. 
        assert (EXa : forall f, In f B' -> length f = length U /\ extends U ((s, a) :: T) f).
        { intros f If. destruct (HB f (I f If)) as [L [Ex _]]. split; [exact L|].
          intros t b [Q|It]; [injection Q as <- <-; apply E, If|apply Ex, It]. }
        destruct (in_dec b32_eq_dec a cs) as [Da|Da].
        -- apply N.mul_le_mono_l. apply (cap U (r1 ++ r2) NU ((s, a) :: T)); [apply CVa|exact N'|exact EXa].
        -- unfold P. apply (IH a q ((s, a) :: T) (r1 ++ r2) B'); [apply M| |apply CVa|exact N'|].
           ++ intros b Ib [<-|Jb]; [contradiction|exact (NT b Ib Jb)].
           ++ intros f If. destruct (EXa f If) as [L Ex]. split; [exact L|split; [exact Ex|]].
              destruct (HB f (I f If)) as [_ [_ (x & Ix & Ic)]]. exists x. cbn [asked] in Ix. rewrite (E f If) in Ix. split; [|exact Ic].
              revert Ix. cbn [map fst app In]. rewrite !in_app_iff. cbn [In]. tauto.
      * eapply N.le_trans; [apply (sum_two (2 ^ 256 * P)%N (N.of_nat (length cs) * N.of_nat q * P)%N cs S SN)|].
        rewrite SL, Nat2N.inj_succ. set (R := (2 ^ 256)%N). rewrite <- N.add_1_r. apply N.eq_le_incl. ring.
Qed.
