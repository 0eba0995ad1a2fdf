(** Lemmas for C106: hash functions under which an attack fails. *)
From Verif Require Import Base BaseFacts SpecHash CountProofs SpecGame GameProofs.
Local Open Scope nat_scope.

Lemma sum_out (d : N) (X S : list bytes32) : NoDup X -> incl X S ->
  (fold_right (fun a x => (if in_dec b32_eq_dec a X then 0 else d) + x) 0 S <= (N.of_nat (length S) - N.of_nat (length X)) * d)%N.
Proof.
  intros NX IX. set (inx := fun a => if in_dec b32_eq_dec a X then true else false).
  assert (E : (fold_right (fun a x => (if in_dec b32_eq_dec a X then 0 else d) + x) 0 S + N.of_nat (length (filter inx S)) * d =
    N.of_nat (length S) * d)%N).
  { clear NX IX. induction S as [|a S IH]; [reflexivity|]. cbn [fold_right filter length]. unfold inx at 1.
    rewrite (Nat2N.inj_succ (length S)). destruct (in_dec b32_eq_dec a X); cbn [length]; rewrite ?Nat2N.inj_succ; lia. }
  assert (L : length X <= length (filter inx S)).
  { apply NoDup_incl_length; [exact NX|]. intros a Ia. apply filter_In. split; [apply IX, Ia|]. unfold inx. destruct (in_dec _ _ _); [reflexivity|contradiction]. }
  rewrite N.mul_sub_distr_r.
  assert (L' : (N.of_nat (length X) * d <= N.of_nat (length (filter inx S)) * d)%N) by (apply N.mul_le_mono_r; lia). lia.
Qed.

Section Count.
Variables (U : list (list byte)) (NU : NoDup U).
Let covered (T : list (list byte * bytes32)) (rest : list (list byte)) : Prop := forall u, In u U -> In u rest \/ exists a, In (u, a) T.

Lemma new_string T rest s : covered T rest -> In s U -> ~ In s (map fst T) -> exists r1 r2, rest = r1 ++ s :: r2 /\
  (forall a, covered ((s, a) :: T) (r1 ++ r2)) /\
  (2 ^ (256 * N.of_nat (length rest)) = 2 ^ (256 * N.of_nat (length (r1 ++ r2))) * 2 ^ 256)%N.
Proof.
  intros CV Is D. destruct (CV s Is) as [Ir|[a Ia]]; [|destruct D; apply in_map_iff; exists (s, a); auto].
  apply in_split in Ir as (r1 & r2 & ->). exists r1, r2. split; [reflexivity|split].
  - intros a u Iu. destruct (CV u Iu) as [I|[b Ib]]; [|right; exists b; right; exact Ib].
    apply in_app_or in I as [I|[<-|I]]; [left; apply in_or_app; tauto|right; exists a; left; reflexivity|left; apply in_or_app; tauto].
  - rewrite <- N.pow_add_r. f_equal. rewrite !app_length. cbn [length]. lia.
Qed.
Lemma extends_more T s a f : extends U T f -> table U f s = a -> extends U ((s, a) :: T) f.
Proof. intros Ex E t b [Q|I]; [injection Q as <- <-; exact E|apply Ex, I]. Qed.

(** All answers to [L] differ from each other and from [X]. *)
Lemma scattered : forall L T rest B X, (forall s, In s L -> In s U) -> NoDup L -> (forall s, In s L -> ~ In s (map fst T)) ->
  NoDup X -> covered T rest -> NoDup B ->
  (forall f, In f B -> length f = length U /\ extends U T f /\ NoDup (map (table U f) L) /\ forall s, In s L -> ~ In (table U f s) X) ->
  (N.of_nat (length B) * (2 * 2 ^ 256 + N.of_nat (length L) * N.of_nat (length L - 1) + 2 * N.of_nat (length X) * N.of_nat (length L))
   <= 2 * 2 ^ 256 * 2 ^ (256 * N.of_nat (length rest)))%N.
Proof.
  destruct all_ids as (S & SN & SI & SL). induction L as [|s L IH]; intros T rest B X LU NL Fr NX CV NB HB.
  - pose proof (cap U rest NU T B CV NB (fun f If => conj (proj1 (HB f If)) (proj1 (proj2 (HB f If))))) as C. cbn [length].
    set (P := (2 ^ (256 * N.of_nat (length rest)))%N) in *. set (R := (2 ^ 256)%N). clearbody P R.
    change (N.of_nat 0) with 0%N. rewrite !N.mul_0_r, !N.add_0_r, (N.mul_comm _ (2 * R)). apply N.mul_le_mono_l, C.
  - destruct (new_string T rest s CV (LU s (or_introl eq_refl)) (Fr s (or_introl eq_refl))) as (r1 & r2 & -> & CVa & ->).
    inversion NL as [|? ? NI NL']; subst.
    set (P := (2 ^ (256 * N.of_nat (length (r1 ++ r2))))%N).
    pose proof (split_sum (fun f => table U f s)
      (fun a => if in_dec b32_eq_dec a X then 0 else 2 * 2 ^ 256 * P)%N
      (2 * 2 ^ 256 + N.of_nat (length L) * N.of_nat (length L - 1) + 2 * N.of_nat (Datatypes.S (length X)) * N.of_nat (length L))%N S B) as Y.
    assert (Z : ((2 * 2 ^ 256 + N.of_nat (length L) * N.of_nat (length L - 1) + 2 * N.of_nat (Datatypes.S (length X)) * N.of_nat (length L))
      * N.of_nat (length B) <= (2 ^ 256 - N.of_nat (length X)) * (2 * 2 ^ 256 * P))%N).
    { replace (2 ^ 256 - N.of_nat (length X))%N with (N.of_nat (length S) - N.of_nat (length X))%N by (rewrite SL; reflexivity). eapply N.le_trans; [apply Y; [intros; apply SI| |exact NB]|apply sum_out; [exact NX|intros a _; apply SI]].
      intros a B' _ I N' E. destruct (in_dec b32_eq_dec a X) as [Da|Da].
      - replace B' with (@nil (list bytes32)); [cbn; lia|]. destruct B' as [|f B']; [reflexivity|exfalso].
        destruct (HB f (I f (or_introl eq_refl))) as (_ & _ & _ & Q). apply (Q s (or_introl eq_refl)). rewrite (E f (or_introl eq_refl)). exact Da.
      - rewrite N.mul_comm. change (Datatypes.S (length X)) with (length (a :: X)). apply (IH ((s, a) :: T) (r1 ++ r2) B' (a :: X)); try assumption.
        + intros t It. apply LU. right. exact It.
        + intros t It [<-|Jt]; [exact (NI It)|]. apply (Fr t); [right; exact It|exact Jt].
        + constructor; assumption.
        + apply CVa.
        + intros f If. destruct (HB f (I f If)) as (Lf & Ex & ND & Q). cbn [map] in ND. inversion ND as [|? ? NI' ND']; subst.
          split; [exact Lf|split; [apply extends_more; [exact Ex|apply E, If]|split; [exact ND'|]]].
          intros t It [Et|Jt]; [|apply (Q t (or_intror It) Jt)]. pose proof (E f If) as Ea.
          apply NI'. apply in_map_iff. exists t. split; [congruence|exact It]. }
    assert (XL : (N.of_nat (length X) <= 2 ^ 256)%N).
    { rewrite <- SL. pose proof (NoDup_incl_length NX (fun a _ => SI a) : length X <= length S). lia. }
    cbn [length]. replace (Datatypes.S (length L) - 1) with (length L) by lia. rewrite Nat2N.inj_succ in *.
    set (x := N.of_nat (length X)) in *. set (b := N.of_nat (length B)) in *. set (R := (2 ^ 256)%N) in *.
    rewrite Nat2N.inj_sub in *. change (N.of_nat 1) with 1%N in *. set (q := N.of_nat (length L)) in *. 
    assert (RP : (0 < R)%N) by reflexivity. clearbody x b R q P. clear - Z XL RP.
    set (W := (2 * R + q * (q - 1) + 2 * N.succ x * q)%N) in *.
    assert (EW : (2 * R + N.succ q * q + 2 * x * N.succ q = W + 2 * x)%N) by (unfold W; destruct (N.eq_dec q 0) as [->|]; nia).
    rewrite EW. assert (WR : (2 * R <= W)%N) by (unfold W; lia). clearbody W. clear EW q.
    apply (N.mul_le_mono_pos_l _ _ W); [lia|].
    apply N.le_trans with ((R - x) * (2 * R * P) * (W + 2 * x))%N.
    { replace (W * (b * (W + 2 * x)))%N with (W * b * (W + 2 * x))%N by lia. apply N.mul_le_mono_r, Z. }
    replace ((R - x) * (2 * R * P) * (W + 2 * x))%N with (2 * R * P * ((R - x) * (W + 2 * x)))%N by lia.
    replace (W * (2 * R * (P * R)))%N with (2 * R * P * (W * R))%N by lia. apply N.mul_le_mono_l. nia.
Qed.

(** No answer to [L] is in [X]. *)
Lemma avoid : forall L T rest B X, (forall s, In s L -> In s U) -> NoDup L -> (forall s, In s L -> ~ In s (map fst T)) ->
  NoDup X -> covered T rest -> NoDup B ->
  (forall f, In f B -> length f = length U /\ extends U T f /\ forall s, In s L -> ~ In (table U f s) X) ->
  (N.of_nat (length B) * (2 ^ 256 + N.of_nat (length X) * N.of_nat (length L)) <= 2 ^ 256 * 2 ^ (256 * N.of_nat (length rest)))%N.
Proof.
  destruct all_ids as (S & SN & SI & SL). induction L as [|s L IH]; intros T rest B X LU NL Fr NX CV NB HB.
  - pose proof (cap U rest NU T B CV NB (fun f If => conj (proj1 (HB f If)) (proj1 (proj2 (HB f If))))) as C. cbn [length].
    set (P := (2 ^ (256 * N.of_nat (length rest)))%N) in *. set (R := (2 ^ 256)%N). clearbody P R.
    change (N.of_nat 0) with 0%N. rewrite N.mul_0_r, N.add_0_r, (N.mul_comm _ R). apply N.mul_le_mono_l, C.
  - destruct (new_string T rest s CV (LU s (or_introl eq_refl)) (Fr s (or_introl eq_refl))) as (r1 & r2 & -> & CVa & ->).
    inversion NL as [|? ? NI NL']; subst.
    set (P := (2 ^ (256 * N.of_nat (length (r1 ++ r2))))%N).
    pose proof (split_sum (fun f => table U f s)
      (fun a => if in_dec b32_eq_dec a X then 0 else 2 ^ 256 * P)%N
      (2 ^ 256 + N.of_nat (length X) * N.of_nat (length L))%N S B) as Y.
    assert (Z : ((2 ^ 256 + N.of_nat (length X) * N.of_nat (length L)) * N.of_nat (length B) <= (2 ^ 256 - N.of_nat (length X)) * (2 ^ 256 * P))%N).
    { replace (2 ^ 256 - N.of_nat (length X))%N with (N.of_nat (length S) - N.of_nat (length X))%N by (rewrite SL; reflexivity). eapply N.le_trans; [apply Y; [intros; apply SI| |exact NB]|apply sum_out; [exact NX|intros a _; apply SI]].
      intros a B' _ I N' E. destruct (in_dec b32_eq_dec a X) as [Da|Da].
      - replace B' with (@nil (list bytes32)); [cbn; lia|]. destruct B' as [|f B']; [reflexivity|exfalso].
        destruct (HB f (I f (or_introl eq_refl))) as (_ & _ & Q). apply (Q s (or_introl eq_refl)). rewrite (E f (or_introl eq_refl)). exact Da.
      - rewrite N.mul_comm. apply (IH ((s, a) :: T) (r1 ++ r2) B' X); try assumption.
        + intros t It. apply LU. right. exact It.
        + intros t It [<-|Jt]; [exact (NI It)|]. apply (Fr t); [right; exact It|exact Jt].
        + apply CVa.
        + intros f If. destruct (HB f (I f If)) as (Lf & Ex & Q).
          split; [exact Lf|split; [apply extends_more; [exact Ex|apply E, If]|]]. intros t It. apply Q. right. exact It. }
    assert (XL : (N.of_nat (length X) <= 2 ^ 256)%N).
    { rewrite <- SL. pose proof (NoDup_incl_length NX (fun a _ => SI a) : length X <= length S). lia. }
    cbn [length]. rewrite Nat2N.inj_succ in *.
    set (x := N.of_nat (length X)) in *. set (b := N.of_nat (length B)) in *. set (R := (2 ^ 256)%N) in *. set (q := N.of_nat (length L)) in *.
    assert (RP : (0 < R)%N) by reflexivity. clearbody x b R q P. clear - Z XL RP.
    set (W := (R + x * q)%N) in *. replace (R + x * N.succ q)%N with (W + x)%N by (unfold W; lia).
    assert (WR : (R <= W)%N) by (unfold W; lia). clearbody W. clear q.
    apply (N.mul_le_mono_pos_l _ _ W); [lia|].
    apply N.le_trans with ((R - x) * (R * P) * (W + x))%N.
    { replace (W * (b * (W + x)))%N with (W * b * (W + x))%N by lia. apply N.mul_le_mono_r, Z. }
    replace ((R - x) * (R * P) * (W + x))%N with (R * P * ((R - x) * (W + x)))%N by lia.
    replace (W * (R * (P * R)))%N with (R * P * (W * R))%N by lia. apply N.mul_le_mono_l. nia.
Qed.

(** The answers to [M] differ from each other and from [X], those to [L] from all of them. *)
Lemma avoid_both : forall M L T rest B X, (forall s, In s (M ++ L) -> In s U) -> NoDup (M ++ L) -> (forall s, In s (M ++ L) -> ~ In s (map fst T)) ->
  NoDup X -> covered T rest -> NoDup B ->
  (forall f, In f B -> length f = length U /\ extends U T f /\ NoDup (map (table U f) M) /\ (forall s, In s M -> ~ In (table U f s) X) /\
     forall s, In s L -> ~ In (table U f s) (map (table U f) M ++ X)) ->
  (N.of_nat (length B) * (2 ^ 256 + N.of_nat (length M + length X) * N.of_nat (length L)) <= 2 ^ 256 * 2 ^ (256 * N.of_nat (length rest)))%N.
Proof.
  destruct all_ids as (S & SN & SI & SL). induction M as [|s M IH]; intros L T rest B X LU NL Fr NX CV NB HB.
  - cbn [length Nat.add]. apply (avoid L T rest B X); try assumption. intros f If. destruct (HB f If) as (Lf & Ex & _ & _ & Q). auto.
  - cbn [app] in *. destruct (new_string T rest s CV (LU s (or_introl eq_refl)) (Fr s (or_introl eq_refl))) as (r1 & r2 & -> & CVa & ->).
    inversion NL as [|? ? NI NL']; subst.
    set (P := (2 ^ (256 * N.of_nat (length (r1 ++ r2))))%N).
    pose proof (split_sum (fun f => table U f s) (fun _ => 2 ^ 256 * P)%N
      (2 ^ 256 + N.of_nat (length (s :: M) + length X) * N.of_nat (length L))%N S B) as Y.
    cbv beta in Y. rewrite sum_const, SL in Y. rewrite (N.mul_comm (N.of_nat (length B))), N.mul_assoc, (N.mul_comm _ (2 ^ 256)).
    apply Y; [intros; apply SI| |exact NB].
    intros a B' _ I N' E. destruct (in_dec b32_eq_dec a X) as [Da|Da].
    + replace B' with (@nil (list bytes32)); [cbn [length]; rewrite N.mul_0_r; apply N.le_0_l|]. destruct B' as [|f B']; [reflexivity|exfalso].
      destruct (HB f (I f (or_introl eq_refl))) as (_ & _ & _ & Q & _). apply (Q s (or_introl eq_refl)). rewrite (E f (or_introl eq_refl)). exact Da.
    + rewrite N.mul_comm. replace (length (s :: M) + length X) with (length M + length (a :: X)) by (cbn; lia).
      apply (IH L ((s, a) :: T) (r1 ++ r2) B' (a :: X)); try assumption.
      * intros t It. apply LU. right. exact It.
      * intros t It [<-|Jt]; [exact (NI It)|]. apply (Fr t); [right; exact It|exact Jt].
      * constructor; assumption.
      * apply CVa.
      * intros f If. destruct (HB f (I f If)) as (Lf & Ex & ND & Q & K). cbn [map] in ND, K. inversion ND as [|? ? NI' ND']; subst.
        pose proof (E f If) as Ea. split; [exact Lf|split; [apply extends_more; assumption|split; [exact ND'|split]]].
        -- intros t It [Et|Jt]; [|apply (Q t (or_intror It) Jt)]. apply NI'. apply in_map_iff. exists t. split; [congruence|exact It].
        -- intros t It J. apply (K t It). rewrite Ea. cbn [app In]. apply in_app_or in J as [J|[J|J]].
           ++ right. apply in_or_app. left. exact J.
           ++ left. exact J.
           ++ right. apply in_or_app. right. exact J.
Qed.

(** Fix the answer to one string *)
Lemma on_answer s B num den : In s U -> NoDup B ->
  (forall a r1 r2 B', covered [(s, a)] (r1 ++ r2) -> incl B' B -> NoDup B' -> (forall f, In f B' -> table U f s = a) ->
     (N.of_nat (length B') * den <= num * 2 ^ (256 * N.of_nat (length (r1 ++ r2))))%N) ->
  (N.of_nat (length B) * den <= num * 2 ^ (256 * N.of_nat (length U)))%N.
Proof.
  intros Is NB K. destruct all_ids as (S & SN & SI & SL).
  destruct (new_string [] U s (fun u Iu => or_introl Iu) Is (fun X => X)) as (r1 & r2 & _ & CVa & ->).
  set (P := (2 ^ (256 * N.of_nat (length (r1 ++ r2))))%N).
  pose proof (split_sum (fun f => table U f s) (fun _ => num * P)%N den S B) as Y. cbv beta in Y. rewrite sum_const, SL in Y.
  rewrite (N.mul_comm (N.of_nat (length B))), N.mul_assoc, (N.mul_comm _ (2 ^ 256)). apply Y; [intros; apply SI| |exact NB].
  intros a B' _ I N' E. rewrite N.mul_comm. apply (K a r1 r2 B'); try assumption. apply CVa.
Qed.
End Count.
