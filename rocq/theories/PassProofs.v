(** How many passes over the cross-section concealing takes. *)
From Verif Require Import Base BaseFacts SpecTree TreeFacts MpcTree MpcBlock ConcealProofs.
Local Open Scope nat_scope.

(** Height of the highest subtree showing no leaf. *)
Fixpoint mute_height (t : ptree) : nat :=
  match t with
  | PBr l r => let k := Nat.max (mute_height l) (mute_height r) in
               match pleaves t with [] => S k | _ => k end
  | _ => 0
  end.

Section WithHash.
Context {H : Hasher}.

Lemma mute_step W d t : mute_height (pstep W d t) <= Nat.pred (mute_height t).
Proof.
  revert d. induction t as [h|p m|l IHl r IHr]; intros d; [cbn; lia|cbn; lia|].
  destruct (is_conc l && is_conc r) eqn:E.
  - destruct l as [a|?|?]; try discriminate. destruct r as [b|?|?]; try discriminate. cbn. lia.
  - rewrite (pstep_br _ _ _ _ E). cbn [mute_height pleaves]. rewrite !pstep_leaves.
    specialize (IHl (S d)). specialize (IHr (S d)).
    destruct (pleaves l ++ pleaves r) as [|x xs] eqn:El; [|lia].
    apply app_eq_nil in El as [Ll Lr].
    assert (Z : forall u, pleaves u = [] -> mute_height u = 0 -> is_conc u = true).
    { clear. intros [h|p m|l r] L Hm; [reflexivity|discriminate|]. cbn in *. rewrite L in Hm. discriminate. }
    destruct (Nat.eq_dec (Nat.max (mute_height l) (mute_height r)) 0) as [Q|Q]; [|lia].
    rewrite (Z l Ll ltac:(lia)), (Z r Lr ltac:(lia)) in E. discriminate.
Qed.

Lemma mute_zero t : mute_height t = 0 -> pmerges t = 0%N.
Proof.
  induction t as [h|p m|l IHl r IHr]; intros Z; [reflexivity|reflexivity|].
  destruct (is_conc l && is_conc r) eqn:E.
  - destruct l as [a|?|?]; try discriminate. destruct r as [b|?|?]; try discriminate.
  - rewrite (pmerges_br _ _ E). cbn [mute_height] in Z. destruct (pleaves (PBr l r)); [discriminate|].
    rewrite IHl, IHr by lia. reflexivity.
Qed.

Lemma mute_bound D d t : pwf_loose D d t -> mute_height t + d <= S D.
Proof.
  revert d. induction t as [h|p m|l IHl r IHr]; intros d W; cbn [mute_height].
  - cbn in W. lia.
  - cbn in W. lia.
  - destruct W as [Wl Wr]. specialize (IHl _ Wl). specialize (IHr _ Wr).
    destruct (pleaves (PBr l r)); lia.
Qed.
Lemma mute_bound_strict D d t : pwf D d t -> mute_height t + d <= D.
Proof.
  revert d. induction t as [h|p m|l IHl r IHr]; intros d W; cbn [mute_height].
  - cbn in W. lia.
  - cbn in W. lia.
  - destruct W as [Wl Wr]. specialize (IHl _ Wl). specialize (IHr _ Wr).
    destruct (pleaves (PBr l r)); lia.
Qed.

Lemma loop_passes md D t c fuel :
  D <= 31 -> pwf_loose D 0 t -> mute_height t < fuel ->
  conceal_loop fuel md D (flatten 0 t) c = conceal_loop (S (length (flatten 0 t))) md D (flatten 0 t) c.
Proof.
  intros HD. revert t c. induction fuel as [|fuel IH]; intros t c Hw Hm; [lia|].
  assert (Hne : negb (match flatten 0 t with [] => true | _ => false end) = true).
  { pose proof (flatten_nonempty 0 t). destruct (flatten 0 t); [congruence|reflexivity]. }
  assert (Eq : forall f, conceal_loop (S f) md D (flatten 0 t) c =
    if (c + pmerges t =? c)%N then Ret (flatten 0 (pstep (width_of D) 0 t), (c + pmerges t)%N)
    else conceal_loop f md D (flatten 0 (pstep (width_of D) 0 t)) (c + pmerges t)%N).
  { intros f. cbn [conceal_loop]. rewrite Hne.
    replace (debug_assert md true) with (Ret tt) by (destruct md; reflexivity).
    cbn [bind]. rewrite pass_root by assumption. cbn [bind].
    destruct (c + pmerges t =? c)%N; [reflexivity|]. rewrite N.eqb_refl.
    replace (debug_assert md true) with (Ret tt) by (destruct md; reflexivity). reflexivity. }
  rewrite !Eq. destruct (c + pmerges t =? c)%N eqn:E; [reflexivity|].
  apply N.eqb_neq in E. assert (NZ : pmerges t <> 0%N) by lia.
  pose proof (mute_step (width_of D) 0 t) as MS.
  assert (mute_height t <> 0) by (intros Z; apply NZ, mute_zero, Z).
  pose proof (pstep_pwf_loose D (width_of D) 0 t Hw) as Hw'.
  rewrite IH by (try assumption; lia).
  pose proof (pstep_length (width_of D) 0 t) as PL.
  rewrite !conceal_loop_tree by (try assumption; lia). reflexivity.
Qed.
End WithHash.

(** A comb: one concealed node at every depth, two at the last. *)
Fixpoint comb (k : nat) (x : bytes32) : ptree :=
  match k with O => PConc x | S k' => PBr (PConc (b32_fill x00)) (comb k' x) end.
Lemma comb_pwf k : forall D d x, k + d <= D -> pwf D d (comb k x).
Proof.
  induction k as [|k IH]; intros D d x L; cbn [comb pwf]; [lia|]. split; [lia|]. apply IH. lia.
Qed.
Lemma comb_merges k x : pmerges (comb (S k) x) = 1%N.
Proof.
  induction k as [|k IH]; [reflexivity|].
  change (comb (S (S k)) x) with (PBr (PConc (b32_fill x00)) (comb (S k) x)). rewrite pmerges_br by reflexivity.
  rewrite IH. reflexivity.
Qed.
Lemma comb_step {H : Hasher} W k x : forall d, exists x', pstep W d (comb (S k) x) = comb k x'.
Proof.
  induction k as [|k IH]; intros d; [eexists; reflexivity|]. destruct (IH (S d)) as [x' E]. exists x'.
  change (comb (S (S k)) x) with (PBr (PConc (b32_fill x00)) (comb (S k) x)). rewrite pstep_br by reflexivity.
  rewrite E. reflexivity.
Qed.
Lemma comb_passes {H : Hasher} md D k : D <= 31 -> k <= D -> forall x c,
  conceal_loop k md D (flatten 0 (comb k x)) c = Panic PFuel.
Proof.
  intros HD. induction k as [|k IH]; intros L x c; [reflexivity|]. cbn [conceal_loop].
  assert (Hne : negb (match flatten 0 (comb (S k) x) with [] => true | _ => false end) = true) by reflexivity.
  rewrite Hne. replace (debug_assert md true) with (Ret tt) by (destruct md; reflexivity).
  cbn [bind]. rewrite pass_root by (try assumption; apply pwf_loose_of, comb_pwf; lia). cbn [bind].
  rewrite comb_merges. replace (c + 1 =? c)%N with false by (symmetry; apply N.eqb_neq; lia).
  rewrite N.eqb_refl. replace (debug_assert md true) with (Ret tt) by (destruct md; reflexivity). cbn [bind].
  destruct (comb_step (width_of D) k x 0) as [x' E]. rewrite E. apply IH. lia.
Qed.
