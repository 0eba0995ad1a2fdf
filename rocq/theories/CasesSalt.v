(** Cases for TheoremsSalt.v: coins with a secret of 32 bytes. *)
From Verif Require Import Base BaseFacts Strict Engine SpecHash SpecCodec SpecEngine SpecGame SpecHideGame SpecIdGame SpecSalt.
From Verif Require Import StrictProofs TheoremsMpc TheoremsMisc TheoremsGame TheoremsHideGame TheoremsIdGame TheoremsSalt.
From Verif Require Import CasesMpc CasesMisc CasesMore CasesExt CasesHideGame.
Local Open Scope nat_scope.

Definition saltt : typed N := Typed (SType "Lib" (Some "Salt"%string)) (c_le 32).
Definition coin_fields (v : N * N) : list field := [FSerialized u8t (fst v); FSerialized saltt (snd v)].
Definition coinI (H : Hasher) : commit_encode (N * N) := CommitEncode (str "coin") idt (fun md v e => @run H md (coin_fields v) e).
Definition coin (x : N) : secret_value := SecretValue (N * N) coinI (fun e => (x, e)).
Lemma coinI_feeds H : feeds_fields H (str "coin") coin_fields (coinI H).
Proof. split; reflexivity. Qed.
Lemma coin_runs (H : Hasher) x e : exists id, @commit_id H _ Debug (coinI H) (x, e) = Ret id.
Proof.
  assert (R : exists e2, @run H Debug (coin_fields (x, e)) (@engine_new H (str "coin")) = Ret e2).
  { destruct (proj2 (@c36_defined H Debug (FSerialized u8t x) (@engine_new H (str "coin")))) as [e1 E1].
    { split; [cbn; lia|split; [reflexivity|split; [|intros _; split; discriminate]]]. eexists. exists (Fqn "Lib" "U8"). split; reflexivity. }
    destruct (proj2 (@c36_defined H Debug (FSerialized saltt e) e1)) as [e2 E2].
    { destruct (@c36_effect H Debug _ _ _ E1) as (st & bs & _ & _ & EL & _ & EF). rewrite EL, EF.
      split; [cbn; lia|split; [reflexivity|split; [eexists; exists (Fqn "Lib" "Salt"); split; reflexivity|intros _; split; discriminate]]]. }
    exists e2. unfold coin_fields. cbn [run fst snd]. rewrite E1. cbn [bind run]. rewrite E2. reflexivity. }
  destruct R as [e2 R]. eexists.
  apply (@c34_commit_id H _ Debug (coinI H) (x, e) (coin_fields (x, e)) [enc (c_le 1) x; enc (c_le 32) e] e2 eq_refl R).
  constructor; [reflexivity|constructor; [reflexivity|constructor]].
Qed.
Lemma coin_size H x e bs : Forall2 (@feeds H) (coin_fields (x, e)) bs -> length (concat bs) + 64 <= 162.
Proof.
  intros B. inversion B as [|? b1 ? bs1 E1 B1]; subst. inversion B1 as [|? b2 ? bs2 E2 B2]; subst. inversion B2; subst.
  cbn [feeds fst snd ty_codec u8t saltt] in E1, E2. subst. cbn [enc c_le concat]. rewrite !app_length, !le_length. cbn [length]. lia.
Qed.
Lemma coin_salted x : salted 162 Debug (2 ^ 256) (coin x).
Proof.
  apply (c113_salt 162 Debug (2 ^ 256) (coin x) (str "coin") coin_fields N saltt (fun v => (v < 2 ^ 256)%N) (fun e => e) [FSerialized u8t x] []).
  - cbn. lia.
  - exact coinI_feeds.
  - reflexivity.
  - intros f t ls [<-|[]]. discriminate.
  - exact (c_le_lawful 32).
  - auto.
  - auto.
  - intros H e bs _. apply coin_size.
  - intros H e _. apply coin_runs.
Qed.
Lemma coins_salted xs : Forall (salted 162 Debug (2 ^ 256)) (map coin xs).
Proof. induction xs; constructor; [apply coin_salted|assumption]. Qed.

(** Compares the first id with the answer to one question. *)
Definition coin_guesser (ids : list bytes32) : prog bool :=
  match ids with [] => Done false | c :: _ => guesser c end.
Lemma coin_guesser_modest ids : modest 162 1 (coin_guesser ids).
Proof. destruct ids; [exact Logic.I|apply guesser_modest]. Qed.

Lemma c113_blind_case : exists U k k0, universe 162 U /\ (forall cs, modest 162 1 (coin_guesser cs)) /\
  Forall (salted 162 Debug (2 ^ 256)) (map coin [5; 6]%N) /\ N.of_nat (length (map coin [5; 6]%N)) = 2%N /\
  counts (guesses_ids U Debug (2 ^ 256) (map coin [5; 6]%N) coin_guesser) k /\ counts (guesses_noise U 2 coin_guesser) k0.
Proof.
  destruct (all_strings 162) as [U UU].
  destruct (c113_meaning 162 U Debug (2 ^ 256) coin_guesser (map coin [5; 6]%N) UU (coins_salted _)) as ([k K] & [k0 K0] & _).
  exists U, k, k0. split; [exact UU|split; [exact coin_guesser_modest|split; [apply coins_salted|split; [reflexivity|split; assumption]]]].
Qed.
Lemma c113_hiding_case : exists U k1 k2, universe 162 U /\ (forall cs, modest 162 1 (coin_guesser cs)) /\
  Forall (salted 162 Debug (2 ^ 256)) (map coin [5; 6]%N) /\ Forall (salted 162 Debug (2 ^ 256)) (map coin [7; 7]%N) /\
  counts (guesses_ids U Debug (2 ^ 256) (map coin [5; 6]%N) coin_guesser) k1 /\
  counts (guesses_ids U Debug (2 ^ 256) (map coin [7; 7]%N) coin_guesser) k2.
Proof.
  destruct (all_strings 162) as [U UU].
  destruct (c113_meaning 162 U Debug (2 ^ 256) coin_guesser (map coin [5; 6]%N) UU (coins_salted _)) as ([k1 K1] & _).
  destruct (c113_meaning 162 U Debug (2 ^ 256) coin_guesser (map coin [7; 7]%N) UU (coins_salted _)) as ([k2 K2] & _).
  exists U, k1, k2. split; [exact UU|split; [exact coin_guesser_modest|]].
  split; [apply coins_salted|split; [apply coins_salted|split; assumption]].
Qed.
Lemma c113_numbers_case : (N.of_nat 1 <= 2 ^ 100)%N /\ length (map coin [5; 6]%N) = length (map coin [7; 7]%N) /\
  (N.of_nat (length (map coin [5; 6]%N)) <= 2 ^ 20)%N /\
  Forall (salted 162 Debug (2 ^ 256)) (map coin [5; 6]%N) /\ Forall (salted 162 Debug (2 ^ 256)) (map coin [7; 7]%N).
Proof.
  split; [vm_compute; discriminate|split; [reflexivity|split; [vm_compute; discriminate|split; apply coins_salted]]].
Qed.
Lemma c113_meaning_case : Forall (salted 162 Debug (2 ^ 256)) (map coin [5; 6; 7]%N).
Proof. apply coins_salted. Qed.
(** With 256 secrets 257 questions suffice. *)
Lemma c113_search_case : salted 162 Debug (2 ^ 8) (coin 5) /\ salted 162 Debug (2 ^ 256) (coin 5) /\ (0 < 2 ^ 8)%N.
Proof.
  split; [|split; [apply coin_salted|reflexivity]]. destruct (coin_salted 5) as (tag & bytes & T & (fields & FF & D) & J).
  assert (M : forall e, (e < 2 ^ 8)%N -> (e < 2 ^ 256)%N) by (intros e L; apply (N.lt_trans _ _ _ L); reflexivity).
  exists tag, bytes. split; [exact T|split; [exists fields; split; [exact FF|intros e L; apply D, M, L]|intros e e' L L'; apply J; apply M; assumption]].
Qed.
Lemma c113_salt_case : (forall H, feeds_fields H (str "coin") coin_fields (coinI H)) /\ lawful (ty_codec saltt) (fun v => (v < 2 ^ 256)%N) /\
  (forall e, coin_fields (sv_value (coin 5) e) = [FSerialized u8t 5%N] ++ [FSerialized saltt e]) /\
  (forall H e bs, Forall2 (@feeds H) (coin_fields (sv_value (coin 5) e)) bs -> length (concat bs) + 64 <= 162) /\
  forall H e, exists id, @commit_id H _ Debug (coinI H) (sv_value (coin 5) e) = Ret id.
Proof.
  split; [exact coinI_feeds|split; [exact (c_le_lawful 32)|split; [reflexivity|split; [intros H e; apply coin_size|intros H e; apply coin_runs]]]].
Qed.
