(** Builds with debug assertions refine release builds: what the former return, the latter
    return as well. *)
From Verif Require Import Base OrdMap Strict Digest Merkle MpcAtoms MpcTree MpcBlock Engine.
Local Open Scope nat_scope.

(** [o] returns nothing that [o'] does not return. *)
Definition below {A} (o o' : outcome A) : Prop := forall a, o = Ret a -> o' = Ret a.

Lemma below_refl {A} (o : outcome A) : below o o.
Proof. intros a E; exact E. Qed.
Lemma below_bind {A B} (o o' : outcome A) (f f' : A -> outcome B) :
  below o o' -> (forall a, below (f a) (f' a)) -> below (bind o f) (bind o' f').
Proof.
  intros L F b E. destruct o as [a|p]; [|discriminate]. rewrite (L a eq_refl). apply F. exact E.
Qed.
Lemma below_assert b : below (debug_assert Debug b) (debug_assert Release b).
Proof. intros [] _. reflexivity. Qed.
Lemma below_add a b : below (u32_add Debug a b) (u32_add Release a b).
Proof. intros x E. unfold u32_add in *. destruct (_ <? _)%N; [exact E|discriminate]. Qed.
Lemma below_sub a b : below (u32_sub Debug a b) (u32_sub Release a b).
Proof. intros x E. unfold u32_sub in *. destruct (_ <=? _)%N; [exact E|discriminate]. Qed.
Lemma below_pow e : below (u32_pow2 Debug e) (u32_pow2 Release e).
Proof. intros x E. unfold u32_pow2 in *. destruct (_ <? _)%N; [exact E|discriminate]. Qed.
Lemma below_u8_sub a b : below (u8_sub Debug a b) (u8_sub Release a b).
Proof. intros x E. unfold u8_sub in *. destruct (_ <=? _); [exact E|discriminate]. Qed.
Lemma below_span D d : below (node_span Debug D d) (node_span Release D d).
Proof. unfold node_span. apply below_bind; [apply below_sub|intros; apply below_pow]. Qed.

Ltac mono :=
  repeat first
    [ apply below_refl | apply below_assert | apply below_add | apply below_sub | apply below_pow
    | apply below_u8_sub | apply below_span
    | apply below_bind; [|intros ?]
    | match goal with |- below (match ?x with _ => _ end) _ => destruct x end
    | match goal with |- below (if ?x then _ else _) _ => destruct x end
    | match goal with |- below (let '(_, _) := ?x in _) _ => destruct x end ].

Section WithHash.
Context {H : Hasher}.

Lemma below_pass D xs : forall o c, below (conceal_pass Debug D xs o c) (conceal_pass Release D xs o c).
Proof.
  assert (G : forall n xs, length xs <= n ->
    forall o c, below (conceal_pass Debug D xs o c) (conceal_pass Release D xs o c)).
  { induction n as [|n IH]; intros [|n1 tl] L o c; cbn in L; try lia; try apply below_refl.
    cbn [conceal_pass]. destruct n1 as [d1 h1|p1 m1]; destruct tl as [|[d2 h2|p2 m2] tl2];
      cbn in L; mono; try (apply IH; cbn; lia). }
  apply (G (length xs)). lia.
Qed.

Lemma below_loop fuel D : forall xs c, below (conceal_loop fuel Debug D xs c) (conceal_loop fuel Release D xs c).
Proof.
  induction fuel as [|fuel IH]; intros xs c; cbn [conceal_loop]; [apply below_refl|].
  apply below_bind; [apply below_assert|intros _]. apply below_bind; [apply below_pass|intros [[ys o] c']].
  destruct (_ =? _)%N; [apply below_refl|]. apply below_bind; [apply below_assert|intros _]. apply IH.
Qed.

Lemma below_except b ids : below (conceal_except Debug b ids) (conceal_except Release b ids).
Proof.
  unfold conceal_except. destruct (conceal_leaves _ _ _ _ _) as [[xs nf] c]. destruct nf; [|apply below_refl].
  apply below_bind; [apply below_loop|intros []; apply below_refl].
Qed.
Lemma below_other b p : below (conceal_other Debug b p) (conceal_other Release b p).
Proof. unfold conceal_other. apply below_bind; [apply below_except|intros []; apply below_refl]. Qed.
Lemma below_conceal b : below (block_conceal Debug b) (block_conceal Release b).
Proof.
  unfold block_conceal. apply below_bind; [apply below_except|intros [c [n|p]]; [|apply below_refl]].
  apply below_bind; [apply below_assert|intros _]. apply below_refl.
Qed.
Lemma below_commit_id b : below (block_commit_id Debug b) (block_commit_id Release b).
Proof. unfold block_commit_id. apply below_bind; [apply below_conceal|intros; apply below_refl]. Qed.
Lemma below_tree_commit_id t : below (tree_commit_id Debug t) (tree_commit_id Release t).
Proof.
  unfold tree_commit_id, tree_conceal. apply below_bind; [apply below_conceal|intros; apply below_refl].
Qed.
Lemma below_sum D xs : forall a, below (span_sum Debug D xs a) (span_sum Release D xs a).
Proof.
  induction xs as [|n r IH]; intros a; cbn [span_sum]; [apply below_refl|].
  apply below_bind; [apply below_u8_sub|intros]. apply below_bind; [apply below_pow|intros].
  apply below_bind; [apply below_add|intros]. apply IH.
Qed.
Lemma below_merge a b : below (merge_reveal Debug a b) (merge_reveal Release a b).
Proof.
  unfold merge_reveal. apply below_bind; [apply below_commit_id|intros x].
  apply below_bind; [apply below_commit_id|intros y]. destruct (negb _); [apply below_refl|].
  apply below_bind; [apply below_refl|intros [|n xs]]; [apply below_refl|].
  apply below_bind; [apply below_refl|intros _]. apply below_bind; [apply below_sum|intros s].
  apply below_bind; [apply below_refl|intros _]. apply below_bind; [apply below_commit_id|intros z].
  apply below_refl.
Qed.
Lemma below_merge_path a pf p m : below (merge_reveal_path Debug a pf p m) (merge_reveal_path Release a pf p m).
Proof.
  unfold merge_reveal_path. apply below_bind; [apply below_refl|intros [b|e]]; [apply below_merge|apply below_refl].
Qed.
Lemma below_path xs : forall m, below (path_map Debug xs m) (path_map Release xs m).
Proof.
  induction xs as [|[d h|p m'] r IH]; intros m; cbn [path_map]; [apply below_refl| |apply IH].
  destruct (om_insert _ _ _ _) as [old m'].
  apply below_bind; [apply below_assert|intros _]. apply IH.
Qed.
Lemma below_proof b p : below (to_merkle_proof Debug b p) (to_merkle_proof Release b p).
Proof.
  unfold to_merkle_proof. apply below_bind; [apply below_other|intros [c [u|q]]; [|apply below_refl]].
  apply below_bind; [apply below_path|intros m]. apply below_bind; [apply below_assert|intros _]. apply below_refl.
Qed.
Lemma below_convolve pf p m : below (convolve Debug pf p m) (convolve Release pf p m).
Proof.
  unfold convolve. apply below_bind; [apply below_refl|intros [b|e]]; [|apply below_refl].
  apply below_bind; [apply below_commit_id|intros; apply below_refl].
Qed.
Lemma below_known_proofs b ids : below (known_proofs Debug b ids) (known_proofs Release b ids).
Proof.
  induction ids as [|i r IH]; cbn [known_proofs]; [apply below_refl|].
  apply below_bind; [apply below_proof|intros [pf|q]]; [|apply below_refl].
  apply below_bind; [exact IH|intros; apply below_refl].
Qed.
Lemma below_matches a b : below (mb_matches Debug a b) (mb_matches Release a b).
Proof.
  unfold mb_matches. apply below_bind; [apply below_commit_id|intros].
  apply below_bind; [apply below_commit_id|intros; apply below_refl].
Qed.
Lemma below_widths t b pf :
  below (mt_factored_width Debug t) (mt_factored_width Release t) /\
  below (mb_factored_width Debug b) (mb_factored_width Release b) /\
  below (mp_factored_width Debug pf) (mp_factored_width Release pf).
Proof.
  split; [apply below_sub|]. split; [apply below_sub|]. unfold mp_factored_width.
  apply below_bind; [apply below_refl|intros; apply below_sub].
Qed.
End WithHash.

Lemma below_inner e bytes : below (inner_commit_to Debug e bytes) (inner_commit_to Release e bytes).
Proof. unfold inner_commit_to. apply below_bind; [apply below_assert|intros; apply below_refl]. Qed.
