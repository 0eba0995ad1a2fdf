(** The level of a buoy is the depth of the subtree completed last. *)
From Verif Require Import Base Merkle SpecTree SpecBuoy.
Local Open Scope nat_scope.

Fixpoint repr (s : buoy) : list nat :=
  match s with
  | Buoy b None => [b]
  | Buoy b (Some s') => repr s' ++ [b]
  end.

Lemma repr_level s : hd_error (repr s) = Some (buoy_level s).
Proof.
  assert (G : forall s, exists l, repr s = buoy_level s :: l).
  { fix F 1. intros [b [s'|]]; cbn; [|exists []; reflexivity]. destruct (F s') as [l ->].
    exists (l ++ [b]). reflexivity. }
  destruct (G s) as [l ->]. reflexivity.
Qed.

(** Strictly deeper towards the front, never at the root. *)
Fixpoint deepening (l : list nat) : Prop :=
  match l with
  | [] => True
  | x :: r => 1 <= x /\ match r with y :: _ => y < x | [] => True end /\ deepening r
  end.

Lemma deepening_app l b : deepening (l ++ [b]) -> deepening l /\ 1 <= b /\ forall x, In x l -> b < x.
Proof.
  induction l as [|x r IH]; cbn [app deepening]; [cbn; tauto|].
  intros (X & L & Dr). destruct (IH Dr) as (Dr' & B & F). split; [|split; [exact B|]].
  - split; [exact X|split; [destruct r; [exact I|exact L]|exact Dr']].
  - intros y [<-|Iy]; [|apply F, Iy]. destruct r as [|z r]; cbn in L; [lia|]. specialize (F z (or_introl eq_refl)). lia.
Qed.


Lemma repr_last s : exists l, repr s = l ++ [match s with Buoy b _ => b end].
Proof. destruct s as [b [s'|]]; cbn; [exists (repr s'); reflexivity|exists []; reflexivity]. Qed.

Lemma push_repr s k r :
  deepening (repr s) -> 1 <= k ->
  match buoy_push s k with
  | (true, s') => exists x, s' = Buoy x None /\ match s with Buoy b _ => b = S x end /\
                            settle k (repr s ++ r) = settle x r
  | (false, s') => settle k (repr s ++ r) = repr s' ++ r
  end.
Proof.
  revert k r. induction s as [b [s|] IH] using
    (fix F (P : buoy -> Prop) (f : forall b st, match st with Some s => P s | None => True end -> P (Buoy b st)) (s : buoy) : P s :=
       match s with Buoy b st => f b st (match st with Some s' => F P f s' | None => I end) end);
    intros k r De K; cbn [buoy_push repr].
  - destruct (k =? 0) eqn:E0; [apply Nat.eqb_eq in E0; lia|]. cbn in De.
    destruct (deepening_app _ _ De) as (Ds & B & Deep). specialize (IH k (b :: r) Ds K).
    destruct (buoy_push s k) as [[] s'].
    + destruct IH as (x & -> & X & S0). rewrite <- app_assoc. cbn [app]. rewrite S0. cbn [buoy_level].
      destruct (repr_last s) as [l L]. destruct s as [b0 st0]. subst b0.
      assert (b < S x) by (apply Deep; rewrite L; apply in_or_app; right; left; reflexivity).
      unfold buoy_push_flat. destruct (x =? 0) eqn:X0; [apply Nat.eqb_eq in X0; lia|]. cbn [settle].
      destruct (x =? b) eqn:Xb.
      * apply Nat.eqb_eq in Xb. subst b. rewrite Nat.eqb_refl. exists (Nat.pred x).
        rewrite Nat.sub_1_r. split; [reflexivity|]. split; [lia|reflexivity].
      * rewrite Nat.eqb_sym, Xb. reflexivity.
    + rewrite <- !app_assoc. cbn [app]. rewrite IH. cbn [repr]. rewrite <- app_assoc. reflexivity.
  - destruct (k =? 0) eqn:E0; [apply Nat.eqb_eq in E0; lia|]. unfold buoy_push_flat. rewrite E0. cbn [app settle].
    destruct (k =? b) eqn:E.
    + apply Nat.eqb_eq in E. subst b. rewrite Nat.eqb_refl. exists (Nat.pred k). rewrite Nat.sub_1_r.
      split; [reflexivity|]. split; [lia|reflexivity].
    + rewrite Nat.eqb_sym, E. reflexivity.
Qed.

Definition settle_run (st ks : list nat) : list nat := fold_left (fun st k => settle k st) ks st.

Lemma run_app st a b : settle_run st (a ++ b) = settle_run (settle_run st a) b.
Proof. apply fold_left_app. Qed.

(** Below every pending depth of [st]: either smaller, or equal to its head. *)
Definition low_fits (d : nat) (st : list nat) : Prop := match st with x :: _ => x <= d | [] => True end.

Lemma run_full t : forall d st, low_fits d st -> settle_run st (fdepths d t) = settle d st.
Proof.
  induction t as [h|p m|l IHl r IHr]; intros d st F; cbn [fdepths]; [reflexivity|reflexivity|].
  rewrite run_app, IHl.
  - assert (E : settle (S d) st = S d :: st).
    { destruct st as [|x st]; [reflexivity|]. cbn in *. destruct (x =? S d) eqn:E; [apply Nat.eqb_eq in E; lia|reflexivity]. }
    rewrite E, IHr; [|cbn; lia]. cbn [settle]. rewrite Nat.eqb_refl. reflexivity.
  - destruct st; cbn in *; lia.
Qed.

Lemma run_prefix t : forall d st pre suf, fdepths d t = pre ++ suf -> suf <> [] -> low_fits d st -> deepening st ->
  deepening (settle_run st pre) /\ (pre = [] \/ forall x, hd_error (settle_run st pre) = Some x -> d < x).
Proof.
  induction t as [h|p m|l IHl r IHr]; intros d st pre suf E Sf F De; cbn [fdepths] in E.
  - destruct pre as [|x pre]; [split; [exact De|left; reflexivity]|]. destruct pre; destruct suf; try discriminate. congruence.
  - destruct pre as [|x pre]; [split; [exact De|left; reflexivity]|]. destruct pre; destruct suf; try discriminate. congruence.
  - assert (F' : low_fits (S d) st) by (destruct st; cbn in *; lia).
    assert (E1 : settle (S d) st = S d :: st).
    { destruct st as [|x st]; [reflexivity|]. cbn in *. destruct (x =? S d) eqn:E1; [apply Nat.eqb_eq in E1; lia|reflexivity]. }
    assert (D1 : deepening (S d :: st)).
    { cbn [deepening]. split; [lia|]. split; [destruct st; cbn in *; [exact I|lia]|exact De]. }
    apply app_eq_app in E. destruct E as [mid [[E1' E2]|[E1' E2]]].
    + destruct mid as [|m0 mid].
      * rewrite app_nil_r in E1'. subst pre. cbn in E2. rewrite run_full, E1 by exact F'. split; [exact D1|].
        right. intros x [= <-]. lia.
      * destruct (IHl (S d) st pre (m0 :: mid) E1' ltac:(discriminate) F' De) as [A [B|B]]; (split; [exact A|]).
        { left. exact B. } { right. intros x Hx. specialize (B x Hx). lia. }
    + rewrite E1', run_app, run_full, E1 by exact F'.
      destruct (IHr (S d) (S d :: st) mid suf E2 Sf ltac:(cbn; lia) D1) as [A [B|B]]; (split; [exact A|]).
      * subst mid. right. cbn. intros x [= <-]. lia.
      * right. intros x Hx. specialize (B x Hx). lia.
Qed.

Lemma fdepths_pos t d x : In x (fdepths (S d) t) -> 1 <= x.
Proof.
  revert d. induction t as [h|p m|l IHl r IHr]; intros d; cbn [fdepths]; [cbn; lia|cbn; lia|].
  rewrite in_app_iff. intros [I|I]; [eapply IHl|eapply IHr]; exact I.
Qed.

Lemma pushes_repr t d first later : fdepths d t = first :: later -> forall pre suf, later = pre ++ suf ->
  repr (pushes (buoy_new first) pre) = pending (first :: pre).
Proof.
  intros E pre. induction pre as [|k pre IH] using rev_ind; intros suf Es; [reflexivity|].
  rewrite <- app_assoc in Es. specialize (IH _ Es). unfold pushes in *. rewrite fold_left_app. cbn [fold_left].
  unfold pending in *.
  assert (K : fdepths d t = (first :: pre) ++ (k :: suf)) by (rewrite E, Es; reflexivity).
  destruct (run_prefix t d [] (first :: pre) (k :: suf) K ltac:(discriminate) I I) as [De _].
  assert (Kp : 1 <= k).
  { destruct t as [h|p m|l r]; [destruct pre; discriminate|destruct pre; discriminate|].
    cbn [fdepths] in K. assert (Ik : In k (fdepths (S d) l ++ fdepths (S d) r)) by (rewrite K; apply in_or_app; right; left; reflexivity).
    apply in_app_iff in Ik. destruct Ik as [Ik|Ik]; eapply fdepths_pos, Ik. }
  unfold settle_run in De. rewrite <- IH in De. change (first :: pre ++ [k]) with ((first :: pre) ++ [k]).
  rewrite fold_left_app. cbn [fold_left app] in IH |- *. rewrite <- IH.
  set (s := fold_left _ pre (buoy_new first)) in *.
  pose proof (push_repr s k [] De Kp) as P. rewrite !app_nil_r in P.
  destruct (buoy_push s k) as [[] s']; cbn [snd].
  - destruct P as (x & -> & _ & ->). reflexivity.
  - rewrite P, app_nil_r. reflexivity.
Qed.

Lemma level_pending t d first later pre suf : fdepths d t = first :: later -> later = pre ++ suf ->
  hd_error (pending (first :: pre)) = Some (buoy_level (pushes (buoy_new first) pre)).
Proof. intros E Es. rewrite <- (pushes_repr _ _ _ _ E _ _ Es). apply repr_level. Qed.
