(** C38: length prefixes of data of any length. *)
From Verif Require Import Base BaseFacts Strict Digest SpecEngine SpecMisc EngineProofs MiscProofs.
Local Open Scope nat_scope.

Lemma input_24 max e d : (2 ^ 16 <= max < 2 ^ 24)%N -> input_with_len max e d =
  if (N.of_nat (length d) mod 2 ^ 32 <? 2 ^ 24)%N then Ret (e ++ le 3 (N.of_nat (length d) mod 2 ^ 32) ++ d) else Panic PAssert.
Proof.
  intros M. unfold input_with_len.
  replace (max <=? 0xFF)%N with false by (symmetry; apply N.leb_gt; lia).
  replace (max <=? 0xFFFF)%N with false by (symmetry; apply N.leb_gt; lia).
  replace (max <=? 0xFFFFFF)%N with true by (symmetry; apply N.leb_le; lia).
  unfold u24_with. destruct (_ <? _)%N; [|reflexivity]. cbn [bind]. unfold input_raw. rewrite app_assoc. reflexivity.
Qed.
Lemma c38_every : forall max k e d (size : prefix_size max k) (max_ok : (max < 2 ^ 32)%N),
  let n := N.of_nat (length d) in
  (k <> 3 -> input_with_len max e d = Ret (e ++ le k n ++ d)) /\
  (k = 3 -> (n mod 2 ^ 32 < 2 ^ 24)%N -> input_with_len max e d = Ret (e ++ le 3 (n mod 2 ^ 32) ++ d)) /\
  (k = 3 -> (2 ^ 24 <= n mod 2 ^ 32)%N -> input_with_len max e d = Panic PAssert).
Proof.
  intros max k e d P M n. split; [|split].
  - intros K. apply input_truncated; [exact P|]. destruct P; lia.
  - intros -> L. rewrite input_24 by (inversion P; assumption). fold n.
    replace (n mod 2 ^ 32 <? 2 ^ 24)%N with true by (symmetry; apply N.ltb_lt; exact L). reflexivity.
  - intros -> L. rewrite input_24 by (inversion P; assumption). fold n.
    replace (n mod 2 ^ 32 <? 2 ^ 24)%N with false by (symmetry; apply N.ltb_ge; exact L). reflexivity.
Qed.

(** Two sequences of calls feeding the same bytes with 24-bit prefixes: one call with 2^32 bytes, which are themselves a
    sequence of framed strings. *)
Definition long_inner (m : nat) : list (list byte) := [x00] :: repeat [] m.
Lemma framed_empty k m : framed k (repeat [] m) = repeat x00 (m * k).
Proof.
  unfold framed. induction m as [|m IH]; [reflexivity|]. cbn [repeat map concat length N.of_nat Nat.mul].
  rewrite IH, le_zero, app_nil_r, <- repeat_app. reflexivity.
Qed.
Lemma long_inner_length m : length (framed 3 (long_inner m)) = 4 + m * 3.
Proof.
  unfold long_inner. change (framed 3 ([x00] :: repeat [] m)) with ((le 3 1 ++ [x00]) ++ framed 3 (repeat [] m)).
  rewrite framed_empty, !app_length, repeat_length, le_length. reflexivity.
Qed.
Lemma c38_too_long_24_refuted : forall max e, prefix_size max 3 ->
  exists xs ys s, xs <> ys /\ inputs_with_len max e xs = Ret s /\ inputs_with_len max e ys = Ret s.
Proof.
  intros max e P. set (m := N.to_nat 1431655764).
  assert (LM : N.of_nat m = 1431655764%N) by apply N2Nat.id. clearbody m.
  set (d := framed 3 (long_inner m)).
  assert (LD : N.of_nat (length d) = (2 ^ 32)%N).
  { unfold d. rewrite long_inner_length, Nat2N.inj_add, Nat2N.inj_mul, LM. reflexivity. }
  assert (M : (2 ^ 16 <= max < 2 ^ 24)%N) by (inversion P; assumption).
  exists [d], ([] :: long_inner m), (e ++ framed 3 ([] :: long_inner m)). split; [|split].
  - intros E. injection E as _ E. discriminate.
  - cbn [inputs_with_len]. rewrite input_24, LD by exact M.
    change (2 ^ 32 mod 2 ^ 32)%N with 0%N. change (0 <? 2 ^ 24)%N with true. cbn [bind].
    change (framed 3 ([] :: long_inner m)) with ((le 3 0 ++ []) ++ framed 3 (long_inner m)). fold d.
    rewrite app_nil_r. reflexivity.
  - apply (inputs_ok max 3 ([] :: long_inner m) e P); [lia|]. constructor; [cbn; lia|]. constructor; [cbn; lia|].
    apply Forall_forall. intros x X. apply repeat_spec in X. subst. cbn. lia.
Qed.
