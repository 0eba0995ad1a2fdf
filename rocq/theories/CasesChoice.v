(** Cases for TheoremsChoice.v: pairs of coins, chosen one after the other. *)
From Verif Require Import Base BaseFacts Strict Engine SpecHash SpecCodec SpecEngine SpecGame SpecHideGame SpecIdGame SpecSalt SpecChoice.
From Verif Require Import StrictProofs TheoremsMpc TheoremsMisc TheoremsGame TheoremsHideGame TheoremsIdGame TheoremsSalt TheoremsChoice.
From Verif Require Import CasesMpc CasesMisc CasesMore CasesExt CasesHideGame CasesSalt.
Local Open Scope nat_scope.

Definition coin_bytes (x e : N) : list byte := le 1 x ++ le 32 e.
Definition coin_dv (x : N) : described_value := DescribedValue (coin x) (str "coin") (coin_bytes x).
Lemma coin_dv_salted x : salted_by 162 Debug (2 ^ 256) (dv_value (coin_dv x)) (dv_tag (coin_dv x)) (dv_bytes (coin_dv x)).
Proof.
  split; [cbn; lia|split].
  - exists coin_fields. split; [exact coinI_feeds|]. intros e B. cbn [coin_dv dv_value dv_bytes coin sv_value sv_commit].
    split; [unfold coin_bytes; rewrite app_length, !le_length; lia|split].
    + intros H. exists [enc (c_le 1) x; enc (c_le 32) e]. split; [constructor; [reflexivity|constructor; [reflexivity|constructor]]|].
      cbn [concat]. rewrite app_nil_r. reflexivity.
    + intros H. apply coin_runs.
  - intros e e' B B' E. cbn [coin_dv dv_bytes] in E. unfold coin_bytes in E. apply app_inv_head in E.
    assert (LW : lawful (c_le 32) (fun v => (v < 2 ^ 256)%N)) by exact (c_le_lawful 32).
    apply (lawful_inj _ _ e e' [] [] LW B B'). cbn [enc c_le]. rewrite !app_nil_r. exact E.
Qed.
(** One pair; then a second pair which depends on the id and on a hash; "yes" if the two ids agree. *)
Definition chooser : dialogue :=
  AskPair (coin_dv 5) (coin_dv 6) (fun id => AskHash (b32 id) (fun h =>
    AskPair (coin_dv (if b32_eqb h id then 1 else 2)) (coin_dv 3) (fun id2 => Verdict (b32_eqb id id2)))).
Lemma chooser_fair : fair 162 Debug (2 ^ 256) 1 2 chooser.
Proof.
  cbn [chooser fair]. split; [apply coin_dv_salted|split; [apply coin_dv_salted|]]. intros id. rewrite b32_length. split; [lia|]. intros h.
  split; [apply coin_dv_salted|split; [apply coin_dv_salted|intros; exact Logic.I]].
Qed.
Lemma c115_choice_case : exists U k1 k2, universe 162 U /\ fair 162 Debug (2 ^ 256) 1 2 chooser /\
  counts (guesses_side U Debug (2 ^ 256) 2 true chooser) k1 /\ counts (guesses_side U Debug (2 ^ 256) 2 (negb true) chooser) k2.
Proof.
  destruct (all_strings 162) as [U UU].
  destruct (c115_meaning 162 U 1 2 Debug (2 ^ 256) chooser true UU chooser_fair) as (_ & [k1 K1] & _).
  destruct (c115_meaning 162 U 1 2 Debug (2 ^ 256) chooser false UU chooser_fair) as (_ & [k2 K2] & _).
  exists U, k1, k2. split; [exact UU|split; [exact chooser_fair|split; assumption]].
Qed.
Lemma c115_meaning_case : fair 162 Debug (2 ^ 256) 1 2 chooser /\ Forall (fun e => (e < 2 ^ 256)%N) [3; 4]%N /\ replies flat Debug true [3; 4]%N chooser true.
Proof.
  split; [exact chooser_fair|split; [repeat constructor|]]. unfold chooser.
  eapply re_pair; [cbv zeta; vm_compute; reflexivity|]. apply re_hash. eapply re_pair; [cbv zeta; vm_compute; reflexivity|].
  match goal with |- replies _ _ _ _ (Verdict ?b) _ => assert (E : b = true) by (vm_compute; reflexivity); rewrite E end. constructor.
Qed.
Lemma c115_numbers_case : fair 162 Debug (2 ^ 256) 1 2 chooser /\ (N.of_nat 1 <= 2 ^ 100)%N /\ (N.of_nat 2 <= 2 ^ 20)%N.
Proof. split; [exact chooser_fair|split; vm_compute; discriminate]. Qed.
