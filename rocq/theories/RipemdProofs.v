From Verif Require Import Base BaseFacts Sha256 Ripemd SpecSha SpecRipemd ShaProofs.
Local Open Scope nat_scope.

(** ** words *)
Lemma rword_le a b c d :
  le 4 (((Byte.to_N a * 256 + Byte.to_N b) * 256 + Byte.to_N c) * 256 + Byte.to_N d)%N = [d; c; b; a] /\
  ((((Byte.to_N a * 256 + Byte.to_N b) * 256 + Byte.to_N c) * 256 + Byte.to_N d) < 2 ^ 32)%N.
Proof.
  pose proof (le_of_val [d; c; b; a]) as E.
  replace (((Byte.to_N a * 256 + Byte.to_N b) * 256 + Byte.to_N c) * 256 + Byte.to_N d)%N with (le_val [d; c; b; a]).
  - split.
    + change 4 with (length [d; c; b; a]). rewrite E. reflexivity.
    + apply (le_val_bound [d; c; b; a]).
  - cbn [le_val]. lia.
Qed.

Lemma rwords_spec k : forall l, length l = 4 * k ->
  length (rwords l) = k /\ Forall (fun w => (w < 2 ^ 32)%N) (rwords l) /\ concat (map (le 4) (rwords l)) = l.
Proof.
  induction k as [|k IH]; intros l E.
  - destruct l; [|discriminate]. repeat constructor.
  - destruct l as [|a [|b [|c [|d r]]]]; cbn in E; try lia.
    destruct (IH r) as [L [F C]]; [lia|]. destruct (rword_le d c b a) as [W B].
    cbn [rwords length map concat]. rewrite W, C, L. repeat split.
    constructor; assumption.
Qed.

(** ** blocks *)
Lemma rblocks_chain k : forall fuel ws s, length ws = 16 * k -> k <= fuel ->
  exists calls, rchain s (chunk k ws) calls (rblocks fuel ws s).
Proof.
  induction k as [|k IH]; intros fuel ws s E F.
  - destruct ws; [|discriminate]. exists []. destruct fuel; constructor.
  - destruct fuel as [|fuel]; [lia|]. destruct ws as [|w ws']; [discriminate|].
    destruct (IH fuel (skipn 16 (w :: ws')) (rcompress s (firstn 16 (w :: ws')))) as [calls C];
      [rewrite skipn_length; lia | lia|].
    eexists. cbn [chunk rblocks]. constructor. exact C.
Qed.


Lemma rpad_rpadded x : rpadded x (rpad x) /\ exists k, length (rpad x) = 64 * k /\ 1 <= k.
Proof.
  set (n := length x).
  set (z := (55 + 64 - n mod 64) mod 64).
  assert (L : exists k, length (rpad x) = 64 * k /\ 1 <= k).
  { exists ((n + 9 + z) / 64).
    assert (M : (n + 9 + z) mod 64 = 0).
    { unfold z. rewrite Nat.add_mod_idemp_r by discriminate.
      pose proof (Nat.mod_upper_bound n 64 ltac:(discriminate)).
      pose proof (Nat.div_mod n 64 ltac:(discriminate)).
      set (q := n / 64) in *. set (r := n mod 64) in *.
      replace (n + 9 + (55 + 64 - r)) with ((q + 2) * 64) by lia. apply Nat.mod_mul. discriminate. }
    assert (LL : length (rpad x) = n + 9 + z).
    { unfold rpad. fold n. fold z. rewrite !app_length, le_length, repeat_length. cbn. fold n. lia. }
    rewrite LL. pose proof (Nat.div_mod (n + 9 + z) 64 ltac:(discriminate)) as D.
    rewrite M in D. split; [lia|].
    destruct ((n + 9 + z) / 64); lia. }
  split; [|exact L].
  exists z. split; [|split].
  - unfold rpad. fold n. fold z. cbn [app]. reflexivity.
  - apply Nat.mod_upper_bound. discriminate.
  - destruct L as [k [L _]]. exists k. lia.
Qed.

Lemma rmd_runs x : exists calls, rmd_run x calls (ripemd160 x).
Proof.
  destruct (rpad_rpadded x) as [P [k [L K]]].
  destruct (rwords_spec (16 * k) (rpad x)) as [WL [WF WC]]; [lia|].
  destruct (chunk_spec k (rwords (rpad x))) as [CL [CF CC]]; [lia|].
  destruct (rblocks_chain k (length (rwords (rpad x))) (rwords (rpad x)) riv) as [calls C]; [lia | lia |].
  exists calls, (rpad x), (chunk k (rwords (rpad x))), (rblocks (length (rwords (rpad x))) (rwords (rpad x)) riv).
  split; [exact P|]. split; [|split; [exact C|]].
  - split; [exact CF|]. split.
    + apply concat_firstn_forall. rewrite CC. exact WF.
    + rewrite CC. symmetry. exact WC.
  - unfold ripemd160, rdigest_of, rwords_of. cbn [map concat].
    rewrite app_nil_r. reflexivity.
Qed.

(** ** determinism of the relations *)
Lemma concat_le_inj ws : forall vs, Forall (fun w => (w < 2 ^ 32)%N) ws -> Forall (fun w => (w < 2 ^ 32)%N) vs ->
  concat (map (le 4) ws) = concat (map (le 4) vs) -> ws = vs.
Proof.
  induction ws as [|w ws IH]; intros vs F G E; destruct vs as [|v vs]; cbn [map concat] in E.
  - reflexivity.
  - apply (f_equal (@length _)) in E. rewrite app_length, le_length in E. discriminate.
  - apply (f_equal (@length _)) in E. rewrite app_length, le_length in E. discriminate.
  - apply app_inv_length in E; [|rewrite !le_length; reflexivity]. destruct E as [E1 E2].
    inversion F; inversion G; subst. apply le_inj in E1; [|assumption|assumption].
    rewrite E1. f_equal. apply IH; assumption.
Qed.



Lemma rblocks_of_inj p bs cs : rblocks_of p bs -> rblocks_of p cs -> bs = cs.
Proof.
  intros [L [W E]] [L' [W' E']]. apply concat16_inj; [assumption | assumption|].
  apply concat_le_inj; [apply forall_concat; assumption | apply forall_concat; assumption |].
  rewrite <- E. exact E'.
Qed.

Lemma rblocks_of_length p bs : rblocks_of p bs -> length p = 64 * length bs.
Proof.
  intros [L [_ E]]. subst p. clear -L. induction bs as [|b bs IH]; [reflexivity|].
  inversion L; subst. cbn [concat]. rewrite map_app, concat_app, app_length, IH by assumption.
  assert (Q : forall ws, length (concat (map (le 4) ws)) = 4 * length ws).
  { clear. induction ws as [|w ws IH]; [reflexivity|]. cbn [map concat length]. rewrite app_length, le_length, IH. lia. }
  rewrite Q. cbn [length]. lia.
Qed.

Lemma rpadded_unique x p q : rpadded x p -> rpadded x q -> p = q.
Proof.
  intros [z [-> [Z [k D]]]] [z' [-> [Z' [k' D']]]].
  assert (z = z'); [|subst; reflexivity].
  rewrite app_length in D, D'. cbn [length] in D, D'. rewrite app_length, repeat_length, le_length in D, D'.
  lia.
Qed.

Lemma rchain_unique s bs calls s' : rchain s bs calls s' -> forall calls' s'', rchain s bs calls' s'' -> calls = calls' /\ s' = s''.
Proof.
  induction 1 as [|s b bs calls s' C IH]; intros calls' s'' D; inversion D; subst.
  - split; reflexivity.
  - match goal with K : rchain _ bs _ _ |- _ => destruct (IH _ _ K) as [-> ->] end. split; reflexivity.
Qed.

Lemma rmd_run_unique x c d c' d' : rmd_run x c d -> rmd_run x c' d' -> c = c' /\ d = d'.
Proof.
  intros [p [bs [s [P [B [C D]]]]]] [p' [bs' [s' [P' [B' [C' D']]]]]].
  assert (p = p') by (apply (rpadded_unique x); assumption). subst p'.
  assert (bs = bs') by (apply (rblocks_of_inj p); assumption). subst bs'.
  destruct (rchain_unique _ _ _ _ C _ _ C') as [E1 E2]. subst. split; reflexivity.
Qed.

(** ** collisions *)

Lemma rcompress_proper s b : Forall (fun w => (w < 2 ^ 32)%N) (rwords_of (rcompress s b)).
Proof.
  unfold rwords_of, rcompress. cbn [ra rb rc rd re].
  repeat constructor; apply N.mod_upper_bound; discriminate.
Qed.

Lemma riv_proper : Forall (fun w => (w < 2 ^ 32)%N) (rwords_of riv).
Proof. repeat constructor. Qed.

Lemma rchain_proper s bs calls s' : rchain s bs calls s' ->
  Forall (fun w => (w < 2 ^ 32)%N) (rwords_of s) ->
  Forall (fun b => length b = 16) bs -> Forall (Forall (fun w => (w < 2 ^ 32)%N)) bs ->
  Forall rproper_input calls /\ Forall (fun w => (w < 2 ^ 32)%N) (rwords_of s').
Proof.
  induction 1 as [|s b bs calls s' C IH]; intros S L W.
  - split; [constructor | exact S].
  - inversion L; inversion W; subst. destruct IH as [I1 I2]; [apply rcompress_proper | assumption | assumption|].
    split; [|exact I2]. constructor; [|exact I1]. split; [exact S|]. split; assumption.
Qed.

Lemma rchain_snoc s bs calls s' : rchain s bs calls s' -> bs <> [] ->
  exists bs0 b calls0 s0, bs = bs0 ++ [b] /\ calls = calls0 ++ [(s0, b)] /\ rchain s bs0 calls0 s0 /\ rcompress s0 b = s'.
Proof.
  induction 1 as [|s b bs calls s' C IH]; intros N; [congruence|].
  destruct bs as [|b' bs'].
  - inversion C; subst. exists [], b, [], s. repeat split. constructor.
  - destruct IH as [bs0 [b0 [calls0 [s0 [E1 [E2 [E3 E4]]]]]]]; [discriminate|].
    exists (b :: bs0), b0, ((s, b) :: calls0), s0. rewrite E1, E2. repeat split; [|exact E4].
    constructor. exact E3.
Qed.

Lemma rst_eq_dec (a b : rst) : {a = b} + {a <> b}.
Proof. decide equality; apply N.eq_dec. Qed.

Definition rpair_collides (cx cy : list (rst * list N)) : Prop :=
  exists a b, In a cx /\ In b cy /\ a <> b /\ rcompress (fst a) (snd a) = rcompress (fst b) (snd b).

Lemma rchain_same n : forall bs cs s calls calls' s', length bs = n -> length cs = n ->
  rchain s bs calls s' -> rchain s cs calls' s' -> bs = cs \/ rpair_collides calls calls'.
Proof.
  induction n as [|n IH]; intros bs cs s calls calls' s' L L' C D.
  - left. destruct bs, cs; [reflexivity | discriminate | discriminate | discriminate].
  - destruct (rchain_snoc _ _ _ _ C) as [bs0 [b [k0 [s0 [-> [-> [C0 C1]]]]]]]; [destruct bs; discriminate|].
    destruct (rchain_snoc _ _ _ _ D) as [cs0 [c [k1 [s1 [-> [-> [D0 D1]]]]]]]; [destruct cs; discriminate|].
    rewrite app_length in L, L'. cbn in L, L'.
    destruct (N_list_eq_dec b c) as [->|N1]; [destruct (rst_eq_dec s0 s1) as [->|N2]|].
    + destruct (IH bs0 cs0 s k0 k1 s1) as [->|[a [b [A [B Q]]]]]; [lia | lia | assumption | assumption | left; reflexivity|].
      right. exists a, b. split; [apply in_or_app; left; exact A|]. split; [apply in_or_app; left; exact B|]. exact Q.
    + right. exists (s0, c), (s1, c). split; [apply in_or_app; right; left; reflexivity|].
      split; [apply in_or_app; right; left; reflexivity|]. split; [congruence|]. cbn [fst snd]. congruence.
    + right. exists (s0, b), (s1, c). split; [apply in_or_app; right; left; reflexivity|].
      split; [apply in_or_app; right; left; reflexivity|]. split; [congruence|]. cbn [fst snd]. congruence.
Qed.

Lemma rdigest_inj s s' : Forall (fun w => (w < 2 ^ 32)%N) (rwords_of s) -> Forall (fun w => (w < 2 ^ 32)%N) (rwords_of s') ->
  rdigest_of s = rdigest_of s' -> s = s'.
Proof.
  intros F G E. apply concat_le_inj in E; [|exact F | exact G].
  destruct s, s'. unfold rwords_of in E. cbn in E. congruence.
Qed.


Lemma rmd_reduction x y cx dx cy dy : short x -> short y ->
  rmd_run x cx dx -> rmd_run y cy dy -> dx = dy ->
  x = y \/ (rpair_collides cx cy /\ Forall rproper_input cx /\ Forall rproper_input cy).
Proof.
  intros SX SY [p [bs [s [P [B [C D]]]]]] [p' [bs' [s' [P' [B' [C' D']]]]]] E.
  destruct (rchain_proper _ _ _ _ C riv_proper) as [R1 R2]; [apply B | apply B|].
  destruct (rchain_proper _ _ _ _ C' riv_proper) as [R1' R2']; [apply B' | apply B'|].
  assert (s = s') by (apply rdigest_inj; [assumption | assumption | congruence]). subst s'.
  destruct P as [z [-> [Z [k DV]]]]. destruct P' as [z' [-> [Z' [k' DV']]]].
  pose proof (rblocks_of_length _ _ B) as LB. pose proof (rblocks_of_length _ _ B') as LB'.
  rewrite app_length in DV, DV', LB, LB'. cbn [length] in DV, DV', LB, LB'.
  rewrite app_length, repeat_length, le_length in DV, DV', LB, LB'.
  destruct (Nat.eq_dec (length x) (length y)) as [LE|LN].
  - destruct (rchain_same (length bs) bs bs' riv cx cy s eq_refl ltac:(lia) C C') as [<-|Q]; [|right; repeat split; assumption].
    left. destruct B as [_ [_ B]]. destruct B' as [_ [_ B']]. rewrite <- B in B'.
    apply app_inv_length in B'; [|lia]. symmetry. apply B'.
  - right. split; [|split; assumption].
    destruct (rchain_snoc _ _ _ _ C) as [bs0 [b [k0 [s0 [-> [-> [C0 C1]]]]]]]; [intros ->; cbn in LB; lia|].
    destruct (rchain_snoc _ _ _ _ C') as [cs0 [c [k1 [s1 [-> [-> [D0 D1]]]]]]]; [intros ->; cbn in LB'; lia|].
    exists (s0, b), (s1, c). split; [apply in_or_app; right; left; reflexivity|].
    split; [apply in_or_app; right; left; reflexivity|]. split; [|cbn [fst snd]; congruence].
    intros Q. injection Q as _ Q. subst c. apply LN.
    destruct B as [BL [_ B]]. destruct B' as [_ [_ B']].
    rewrite concat_app, map_app, concat_app in B, B'. cbn [concat] in B, B'. rewrite app_nil_r in B, B'.
    assert (LBB : length b = 16) by (apply Forall_app in BL; destruct BL as [_ BL]; inversion BL; assumption).
    destruct b as [|w0 [|w1 [|w2 [|w3 [|w4 [|w5 [|w6 [|w7 [|w8 [|w9 [|w10 [|w11 [|w12 [|w13 [|w14 [|w15 [|]]]]]]]]]]]]]]]]]; try discriminate LBB.
    set (pre := le 4 w0 ++ le 4 w1 ++ le 4 w2 ++ le 4 w3 ++ le 4 w4 ++ le 4 w5 ++ le 4 w6 ++ le 4 w7
      ++ le 4 w8 ++ le 4 w9 ++ le 4 w10 ++ le 4 w11 ++ le 4 w12 ++ le 4 w13).
    assert (TE : concat (map (le 4) [w0; w1; w2; w3; w4; w5; w6; w7; w8; w9; w10; w11; w12; w13; w14; w15]) = pre ++ (le 4 w14 ++ le 4 w15)).
    { unfold pre. cbn [map concat]. rewrite app_nil_r. repeat rewrite <- app_assoc. reflexivity. }
    rewrite TE in B, B'. rewrite app_assoc in B, B'.
    change (x ++ x80 :: repeat x00 z ++ le 8 (8 * N.of_nat (length x)))
      with (x ++ (x80 :: repeat x00 z) ++ le 8 (8 * N.of_nat (length x))) in B.
    change (y ++ x80 :: repeat x00 z' ++ le 8 (8 * N.of_nat (length y)))
      with (y ++ (x80 :: repeat x00 z') ++ le 8 (8 * N.of_nat (length y))) in B'.
    rewrite app_assoc in B, B'.
    apply tail8 in B; [|rewrite app_length, !le_length; reflexivity].
    apply tail8 in B'; [|rewrite app_length, !le_length; reflexivity].
    rewrite <- B' in B. apply le_inj in B.
    + unfold short in SX, SY. lia.
    + unfold short in SX. change (256 ^ N.of_nat 8)%N with (8 * 2 ^ 61)%N. lia.
    + unfold short in SY. change (256 ^ N.of_nat 8)%N with (8 * 2 ^ 61)%N. lia.
Qed.


Lemma rmd_length x : length (ripemd160 x) = 20.
Proof. unfold ripemd160. rewrite !app_length, !le_length. reflexivity. Qed.

Lemma rmd_unique x c d : rmd_run x c d -> d = ripemd160 x.
Proof. intros R. destruct (rmd_runs x) as [c' R']. exact (proj2 (rmd_run_unique _ _ _ _ _ R R')). Qed.

Lemma rmd_collision_lifts x y L : In x L -> In y L -> short x -> short y -> ripemd160 x = ripemd160 y ->
  x = y \/ rcompress_collision_in L.
Proof.
  intros X Y SX SY E. destruct (rmd_runs x) as [cx RX]. destruct (rmd_runs y) as [cy RY].
  destruct (rmd_reduction x y cx (ripemd160 x) cy (ripemd160 y) SX SY RX RY E) as [Q|[[a [b [A [B [NE C]]]]] [G1 G2]]].
  - left. exact Q.
  - right. rewrite Forall_forall in G1, G2. exists x, cx, (ripemd160 x), y, cy, (ripemd160 y), a, b.
    exact (conj X (conj Y (conj RX (conj RY (conj A (conj B (conj (G1 a A) (conj (G2 b B) (conj NE C))))))))).
Qed.
