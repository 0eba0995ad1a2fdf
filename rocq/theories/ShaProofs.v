From Verif Require Import Base BaseFacts Sha256 SpecHash SpecSha.
Local Open Scope nat_scope.

Lemma s_be_length k v : length (s_be k v) = k.
Proof. unfold s_be. rewrite rev_length. apply le_length. Qed.

Lemma s_be_inj k v w : (v < 256 ^ N.of_nat k)%N -> (w < 256 ^ N.of_nat k)%N -> s_be k v = s_be k w -> v = w.
Proof.
  intros V W E. unfold s_be in E. apply (f_equal (@rev _)) in E. rewrite !rev_involutive in E.
  exact (le_inj k v w V W E).
Qed.

(** ** words *)
Lemma word_be a b c d :
  s_be 4 (((Byte.to_N a * 256 + Byte.to_N b) * 256 + Byte.to_N c) * 256 + Byte.to_N d)%N = [a; b; c; d] /\
  ((((Byte.to_N a * 256 + Byte.to_N b) * 256 + Byte.to_N c) * 256 + Byte.to_N d) < 2 ^ 32)%N.
Proof.
  pose proof (le_of_val [d; c; b; a]) as E.
  replace (((Byte.to_N a * 256 + Byte.to_N b) * 256 + Byte.to_N c) * 256 + Byte.to_N d)%N with (le_val [d; c; b; a]).
  - split.
    + unfold s_be. change 4 with (length [d; c; b; a]). rewrite E. reflexivity.
    + apply (le_val_bound [d; c; b; a]).
  - cbn [le_val]. lia.
Qed.

Lemma words_spec k : forall l, length l = 4 * k ->
  length (words l) = k /\ Forall (fun w => (w < 2 ^ 32)%N) (words l) /\ concat (map (s_be 4) (words l)) = l.
Proof.
  induction k as [|k IH]; intros l E.
  - destruct l; [|discriminate]. repeat constructor.
  - destruct l as [|a [|b [|c [|d r]]]]; cbn in E; try lia.
    destruct (IH r) as [L [F C]]; [lia|]. destruct (word_be a b c d) as [W B].
    cbn [words length map concat]. rewrite W, C, L. repeat split.
    constructor; assumption.
Qed.

(** ** blocks *)
Fixpoint chunk (k : nat) (ws : list N) : list (list N) :=
  match k with O => [] | S k' => firstn 16 ws :: chunk k' (skipn 16 ws) end.

Lemma chunk_spec k : forall ws, length ws = 16 * k ->
  length (chunk k ws) = k /\ Forall (fun b => length b = 16) (chunk k ws) /\ concat (chunk k ws) = ws.
Proof.
  induction k as [|k IH]; intros ws E.
  - destruct ws; [|discriminate]. repeat constructor.
  - destruct (IH (skipn 16 ws)) as [L [F C]]; [rewrite skipn_length; lia|].
    cbn [chunk length concat]. rewrite L, C, firstn_skipn. repeat split.
    constructor; [rewrite firstn_length; lia | assumption].
Qed.

Lemma blocks_chain k : forall fuel ws s, length ws = 16 * k -> k <= fuel ->
  exists calls, chain s (chunk k ws) calls (blocks fuel ws s).
Proof.
  induction k as [|k IH]; intros fuel ws s E F.
  - destruct ws; [|discriminate]. exists []. destruct fuel; constructor.
  - destruct fuel as [|fuel]; [lia|]. destruct ws as [|w ws']; [discriminate|].
    destruct (IH fuel (skipn 16 (w :: ws')) (compress s (firstn 16 (w :: ws')))) as [calls C];
      [rewrite skipn_length; lia | lia|].
    eexists. cbn [chunk blocks]. constructor. exact C.
Qed.

Lemma concat_firstn_forall (P : N -> Prop) bs : Forall P (concat bs) -> Forall (Forall P) bs.
Proof.
  induction bs as [|b bs IH]; intros F; [constructor|]. cbn in F. apply Forall_app in F.
  constructor; [tauto | apply IH; tauto].
Qed.

Lemma pad_padded x : padded x (pad x) /\ exists k, length (pad x) = 64 * k /\ 1 <= k.
Proof.
  set (n := length x).
  set (z := (55 + 64 - n mod 64) mod 64).
  assert (L : exists k, length (pad x) = 64 * k /\ 1 <= k).
  { exists ((n + 9 + z) / 64).
    assert (M : (n + 9 + z) mod 64 = 0).
    { unfold z. rewrite Nat.add_mod_idemp_r by discriminate.
      pose proof (Nat.mod_upper_bound n 64 ltac:(discriminate)).
      pose proof (Nat.div_mod n 64 ltac:(discriminate)).
      set (q := n / 64) in *. set (r := n mod 64) in *.
      replace (n + 9 + (55 + 64 - r)) with ((q + 2) * 64) by lia. apply Nat.mod_mul. discriminate. }
    assert (LL : length (pad x) = n + 9 + z).
    { unfold pad. fold n. fold z. rewrite !app_length, be_length, repeat_length. cbn. fold n. lia. }
    rewrite LL. pose proof (Nat.div_mod (n + 9 + z) 64 ltac:(discriminate)) as D.
    rewrite M in D. split; [lia|].
    destruct ((n + 9 + z) / 64); lia. }
  split; [|exact L].
  exists z. split; [|split].
  - unfold pad. fold n. fold z. unfold be, s_be. cbn [app]. reflexivity.
  - apply Nat.mod_upper_bound. discriminate.
  - destruct L as [k [L _]]. exists k. lia.
Qed.

Lemma sha_runs x : exists calls, sha_run x calls (b32 (sha256 x)).
Proof.
  destruct (pad_padded x) as [P [k [L K]]].
  destruct (words_spec (16 * k) (pad x)) as [WL [WF WC]]; [lia|].
  destruct (chunk_spec k (words (pad x))) as [CL [CF CC]]; [lia|].
  destruct (blocks_chain k (length (words (pad x))) (words (pad x)) iv) as [calls C]; [lia | lia |].
  exists calls, (pad x), (chunk k (words (pad x))), (blocks (length (words (pad x))) (words (pad x)) iv).
  split; [exact P|]. split; [|split; [exact C|]].
  - split; [exact CF|]. split.
    + apply concat_firstn_forall. rewrite CC. exact WF.
    + rewrite CC. symmetry. exact WC.
  - rewrite sha256_total. unfold sha256_bytes, digest_of, be, s_be. cbn [map concat].
    rewrite app_nil_r. reflexivity.
Qed.

(** ** determinism of the relations *)
Lemma concat_be_inj ws : forall vs, Forall (fun w => (w < 2 ^ 32)%N) ws -> Forall (fun w => (w < 2 ^ 32)%N) vs ->
  concat (map (s_be 4) ws) = concat (map (s_be 4) vs) -> ws = vs.
Proof.
  induction ws as [|w ws IH]; intros vs F G E; destruct vs as [|v vs]; cbn [map concat] in E.
  - reflexivity.
  - apply (f_equal (@length _)) in E. rewrite app_length, s_be_length in E. discriminate.
  - apply (f_equal (@length _)) in E. rewrite app_length, s_be_length in E. discriminate.
  - apply app_inv_length in E; [|rewrite !s_be_length; reflexivity]. destruct E as [E1 E2].
    inversion F; inversion G; subst. apply s_be_inj in E1; [|assumption|assumption].
    rewrite E1. f_equal. apply IH; assumption.
Qed.

Lemma concat16_inj (bs : list (list N)) : forall cs, Forall (fun b => length b = 16) bs -> Forall (fun b => length b = 16) cs ->
  concat bs = concat cs -> bs = cs.
Proof.
  induction bs as [|b bs IH]; intros cs F G E; destruct cs as [|c cs]; cbn [concat] in E.
  - reflexivity.
  - inversion G; subst. apply (f_equal (@length _)) in E. rewrite app_length in E. cbn in E. lia.
  - inversion F; subst. apply (f_equal (@length _)) in E. rewrite app_length in E. cbn in E. lia.
  - inversion F; inversion G; subst. apply app_inv_length in E; [|lia]. destruct E as [E1 E2].
    rewrite E1. f_equal. apply IH; assumption.
Qed.

Lemma forall_concat (P : N -> Prop) bs : Forall (Forall P) bs -> Forall P (concat bs).
Proof. induction 1; cbn; [constructor | apply Forall_app; split; assumption]. Qed.

Lemma blocks_of_inj p bs cs : blocks_of p bs -> blocks_of p cs -> bs = cs.
Proof.
  intros [L [W E]] [L' [W' E']]. apply concat16_inj; [assumption | assumption|].
  apply concat_be_inj; [apply forall_concat; assumption | apply forall_concat; assumption |].
  rewrite <- E. exact E'.
Qed.

Lemma blocks_of_length p bs : blocks_of p bs -> length p = 64 * length bs.
Proof.
  intros [L [_ E]]. subst p. clear -L. induction bs as [|b bs IH]; [reflexivity|].
  inversion L; subst. cbn [concat]. rewrite map_app, concat_app, app_length, IH by assumption.
  assert (Q : forall ws, length (concat (map (s_be 4) ws)) = 4 * length ws).
  { clear. induction ws as [|w ws IH]; [reflexivity|]. cbn [map concat length]. rewrite app_length, s_be_length, IH. lia. }
  rewrite Q. cbn [length]. lia.
Qed.

Lemma padded_unique x p q : padded x p -> padded x q -> p = q.
Proof.
  intros [z [-> [Z [k D]]]] [z' [-> [Z' [k' D']]]].
  assert (z = z'); [|subst; reflexivity].
  rewrite app_length in D, D'. cbn [length] in D, D'. rewrite app_length, repeat_length, s_be_length in D, D'.
  lia.
Qed.

Lemma chain_unique s bs calls s' : chain s bs calls s' -> forall calls' s'', chain s bs calls' s'' -> calls = calls' /\ s' = s''.
Proof.
  induction 1 as [|s b bs calls s' C IH]; intros calls' s'' D; inversion D; subst.
  - split; reflexivity.
  - match goal with K : chain _ bs _ _ |- _ => destruct (IH _ _ K) as [-> ->] end. split; reflexivity.
Qed.

Lemma sha_run_unique x c d c' d' : sha_run x c d -> sha_run x c' d' -> c = c' /\ d = d'.
Proof.
  intros [p [bs [s [P [B [C D]]]]]] [p' [bs' [s' [P' [B' [C' D']]]]]].
  assert (p = p') by (apply (padded_unique x); assumption). subst p'.
  assert (bs = bs') by (apply (blocks_of_inj p); assumption). subst bs'.
  destruct (chain_unique _ _ _ _ C _ _ C') as [E1 E2]. subst. split; reflexivity.
Qed.

(** ** collisions *)
Definition words_of (s : st) : list N := [sa s; sb s; sc s; sd s; se s; sf s; sg s; sh s].

Lemma compress_proper s b : Forall (fun w => (w < 2 ^ 32)%N) (words_of (compress s b)).
Proof.
  unfold words_of, compress. cbn [sa sb sc sd se sf sg sh].
  repeat constructor; apply N.mod_upper_bound; discriminate.
Qed.

Lemma iv_proper : Forall (fun w => (w < 2 ^ 32)%N) (words_of iv).
Proof. repeat constructor. Qed.

Lemma chain_proper s bs calls s' : chain s bs calls s' ->
  Forall (fun w => (w < 2 ^ 32)%N) (words_of s) ->
  Forall (fun b => length b = 16) bs -> Forall (Forall (fun w => (w < 2 ^ 32)%N)) bs ->
  Forall proper_input calls /\ Forall (fun w => (w < 2 ^ 32)%N) (words_of s').
Proof.
  induction 1 as [|s b bs calls s' C IH]; intros S L W.
  - split; [constructor | exact S].
  - inversion L; inversion W; subst. destruct IH as [I1 I2]; [apply compress_proper | assumption | assumption|].
    split; [|exact I2]. constructor; [|exact I1]. split; [exact S|]. split; assumption.
Qed.

Lemma chain_snoc s bs calls s' : chain s bs calls s' -> bs <> [] ->
  exists bs0 b calls0 s0, bs = bs0 ++ [b] /\ calls = calls0 ++ [(s0, b)] /\ chain s bs0 calls0 s0 /\ compress s0 b = s'.
Proof.
  induction 1 as [|s b bs calls s' C IH]; intros N; [congruence|].
  destruct bs as [|b' bs'].
  - inversion C; subst. exists [], b, [], s. repeat split. constructor.
  - destruct IH as [bs0 [b0 [calls0 [s0 [E1 [E2 [E3 E4]]]]]]]; [discriminate|].
    exists (b :: bs0), b0, ((s, b) :: calls0), s0. rewrite E1, E2. repeat split; [|exact E4].
    constructor. exact E3.
Qed.

Lemma N_list_eq_dec (a b : list N) : {a = b} + {a <> b}.
Proof. apply list_eq_dec, N.eq_dec. Qed.
Lemma st_eq_dec (a b : st) : {a = b} + {a <> b}.
Proof. decide equality; apply N.eq_dec. Qed.

Definition pair_collides (cx cy : list (st * list N)) : Prop :=
  exists a b, In a cx /\ In b cy /\ a <> b /\ compress (fst a) (snd a) = compress (fst b) (snd b).

Lemma chain_same n : forall bs cs s calls calls' s', length bs = n -> length cs = n ->
  chain s bs calls s' -> chain s cs calls' s' -> bs = cs \/ pair_collides calls calls'.
Proof.
  induction n as [|n IH]; intros bs cs s calls calls' s' L L' C D.
  - left. destruct bs, cs; [reflexivity | discriminate | discriminate | discriminate].
  - destruct (chain_snoc _ _ _ _ C) as [bs0 [b [k0 [s0 [-> [-> [C0 C1]]]]]]]; [destruct bs; discriminate|].
    destruct (chain_snoc _ _ _ _ D) as [cs0 [c [k1 [s1 [-> [-> [D0 D1]]]]]]]; [destruct cs; discriminate|].
    rewrite app_length in L, L'. cbn in L, L'.
    destruct (N_list_eq_dec b c) as [->|N1]; [destruct (st_eq_dec s0 s1) as [->|N2]|].
    + destruct (IH bs0 cs0 s k0 k1 s1) as [->|[a [b [A [B Q]]]]]; [lia | lia | assumption | assumption | left; reflexivity|].
      right. exists a, b. split; [apply in_or_app; left; exact A|]. split; [apply in_or_app; left; exact B|]. exact Q.
    + right. exists (s0, c), (s1, c). split; [apply in_or_app; right; left; reflexivity|].
      split; [apply in_or_app; right; left; reflexivity|]. split; [congruence|]. cbn [fst snd]. congruence.
    + right. exists (s0, b), (s1, c). split; [apply in_or_app; right; left; reflexivity|].
      split; [apply in_or_app; right; left; reflexivity|]. split; [congruence|]. cbn [fst snd]. congruence.
Qed.

Lemma digest_inj s s' : Forall (fun w => (w < 2 ^ 32)%N) (words_of s) -> Forall (fun w => (w < 2 ^ 32)%N) (words_of s') ->
  digest_of s = digest_of s' -> s = s'.
Proof.
  intros F G E. apply concat_be_inj in E; [|exact F | exact G].
  destruct s, s'; cbn in E. congruence.
Qed.

Lemma tail8 (x y : list byte) (a b : list byte) : length a = length b -> x ++ a = y ++ b -> a = b.
Proof.
  intros L E. apply (f_equal (@rev _)) in E. rewrite !rev_app_distr in E.
  apply app_inv_length in E; [|rewrite !rev_length; exact L]. destruct E as [E _].
  apply (f_equal (@rev _)) in E. rewrite !rev_involutive in E. exact E.
Qed.

Lemma sha_reduction x y cx dx cy dy : short x -> short y ->
  sha_run x cx dx -> sha_run y cy dy -> dx = dy ->
  x = y \/ (pair_collides cx cy /\ Forall proper_input cx /\ Forall proper_input cy).
Proof.
  intros SX SY [p [bs [s [P [B [C D]]]]]] [p' [bs' [s' [P' [B' [C' D']]]]]] E.
  destruct (chain_proper _ _ _ _ C iv_proper) as [R1 R2]; [apply B | apply B|].
  destruct (chain_proper _ _ _ _ C' iv_proper) as [R1' R2']; [apply B' | apply B'|].
  assert (s = s') by (apply digest_inj; [assumption | assumption | congruence]). subst s'.
  destruct P as [z [-> [Z [k DV]]]]. destruct P' as [z' [-> [Z' [k' DV']]]].
  pose proof (blocks_of_length _ _ B) as LB. pose proof (blocks_of_length _ _ B') as LB'.
  rewrite app_length in DV, DV', LB, LB'. cbn [length] in DV, DV', LB, LB'.
  rewrite app_length, repeat_length, s_be_length in DV, DV', LB, LB'.
  destruct (Nat.eq_dec (length x) (length y)) as [LE|LN].
  - destruct (chain_same (length bs) bs bs' iv cx cy s eq_refl ltac:(lia) C C') as [<-|Q]; [|right; repeat split; assumption].
    left. destruct B as [_ [_ B]]. destruct B' as [_ [_ B']]. rewrite <- B in B'.
    apply app_inv_length in B'; [|lia]. symmetry. apply B'.
  - right. split; [|split; assumption].
    destruct (chain_snoc _ _ _ _ C) as [bs0 [b [k0 [s0 [-> [-> [C0 C1]]]]]]]; [intros ->; cbn in LB; lia|].
    destruct (chain_snoc _ _ _ _ C') as [cs0 [c [k1 [s1 [-> [-> [D0 D1]]]]]]]; [intros ->; cbn in LB'; lia|].
    exists (s0, b), (s1, c). split; [apply in_or_app; right; left; reflexivity|].
    split; [apply in_or_app; right; left; reflexivity|]. split; [|cbn [fst snd]; congruence].
    intros Q. injection Q as _ Q. subst c. apply LN.
    destruct B as [BL [_ B]]. destruct B' as [_ [_ B']].
    rewrite concat_app, map_app, concat_app in B, B'. cbn [concat] in B, B'. rewrite app_nil_r in B, B'.
    assert (LBB : length b = 16) by (apply Forall_app in BL; destruct BL as [_ BL]; inversion BL; assumption).
    destruct b as [|w0 [|w1 [|w2 [|w3 [|w4 [|w5 [|w6 [|w7 [|w8 [|w9 [|w10 [|w11 [|w12 [|w13 [|w14 [|w15 [|]]]]]]]]]]]]]]]]]; try discriminate LBB.
    set (pre := s_be 4 w0 ++ s_be 4 w1 ++ s_be 4 w2 ++ s_be 4 w3 ++ s_be 4 w4 ++ s_be 4 w5 ++ s_be 4 w6 ++ s_be 4 w7
      ++ s_be 4 w8 ++ s_be 4 w9 ++ s_be 4 w10 ++ s_be 4 w11 ++ s_be 4 w12 ++ s_be 4 w13).
    assert (TE : concat (map (s_be 4) [w0; w1; w2; w3; w4; w5; w6; w7; w8; w9; w10; w11; w12; w13; w14; w15]) = pre ++ (s_be 4 w14 ++ s_be 4 w15)).
    { unfold pre. cbn [map concat]. rewrite app_nil_r. repeat rewrite <- app_assoc. reflexivity. }
    rewrite TE in B, B'. rewrite app_assoc in B, B'.
    change (x ++ x80 :: repeat x00 z ++ s_be 8 (8 * N.of_nat (length x)))
      with (x ++ (x80 :: repeat x00 z) ++ s_be 8 (8 * N.of_nat (length x))) in B.
    change (y ++ x80 :: repeat x00 z' ++ s_be 8 (8 * N.of_nat (length y)))
      with (y ++ (x80 :: repeat x00 z') ++ s_be 8 (8 * N.of_nat (length y))) in B'.
    rewrite app_assoc in B, B'.
    apply tail8 in B; [|rewrite app_length, !s_be_length; reflexivity].
    apply tail8 in B'; [|rewrite app_length, !s_be_length; reflexivity].
    rewrite <- B' in B. apply s_be_inj in B.
    + unfold short in SX, SY. lia.
    + unfold short in SX. change (256 ^ N.of_nat 8)%N with (8 * 2 ^ 61)%N. lia.
    + unfold short in SY. change (256 ^ N.of_nat 8)%N with (8 * 2 ^ 61)%N. lia.
Qed.

Lemma sha_collision_lifts L : Forall short L -> @collision_in sha256 L -> compress_collision_in L.
Proof.
  intros F [x [y [X [Y [N E]]]]].
  destruct (sha_runs x) as [cx RX]. destruct (sha_runs y) as [cy RY].
  rewrite Forall_forall in F.
  change (@HASH sha256) with sha256 in E.
  destruct (sha_reduction x y cx (b32 (sha256 x)) cy (b32 (sha256 y)) (F x X) (F y Y) RX RY) as [Q|[[a [b [A [B [NE C]]]]] [G1 G2]]].
  - rewrite E. reflexivity.
  - contradiction.
  - rewrite Forall_forall in G1, G2.
    exists x, cx, (b32 (sha256 x)), y, cy, (b32 (sha256 y)), a, b.
    exact (conj X (conj Y (conj RX (conj RY (conj A (conj B (conj (G1 a A) (conj (G2 b B) (conj NE C))))))))).
Qed.
