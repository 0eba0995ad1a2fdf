(** Cases for the theorems about hiding. *)
From Verif Require Import Base BaseFacts OrdMap Strict Merkle MpcAtoms MpcTree MpcBlock.
From Verif Require Import SpecHash SpecTree SpecFull SpecValid SpecGame SpecHideGame.
From Verif Require Import TheoremsMpc CasesMpc CasesMisc CasesMore CasesExt TheoremsGame TheoremsHideGame.
Local Open Scope nat_scope.

Definition srcd : multi_source := MultiSource (ms_method src0) (ms_min_depth src0) (ms_messages src0) None.
Definition srcd' : multi_source := MultiSource (ms_method src0') (ms_min_depth src0') (ms_messages src0') None.
Lemma srcd_blinded : blinded 3 srcd.
Proof. split; [reflexivity|]. eexists. split; [comp|]. split; [vm_compute; lia|reflexivity]. Qed.
Lemma srcd'_blinded : blinded 3 srcd'.
Proof. split; [reflexivity|]. eexists. split; [comp|]. split; [vm_compute; lia|reflexivity]. Qed.
Lemma srcd_valid : valid_source srcd. Proof. vsrc. Qed.
Lemma srcd'_valid : valid_source srcd'. Proof. vsrc. Qed.
Lemma srcd_differ : ms_messages srcd <> ms_messages srcd'. Proof. vm_compute. discriminate. Qed.

(** Asks one question and compares the answer with the commitment. *)
Definition guesser (c : bytes32) : prog bool := Ask (b32 c) (fun a => Done (b32_eqb a c)).
Lemma guesser_modest c : modest 162 1 (guesser c).
Proof. cbn. rewrite b32_length. split; [lia|intros; exact I]. Qed.

Lemma c93_blind_case : exists U k k0, universe 162 U /\ (forall c, modest 162 1 (guesser c)) /\ valid_source srcd /\ blinded 3 srcd /\
  counts (guesses U srcd guesser) k /\ counts (guesses_blind U guesser) k0.
Proof.
  destruct (all_strings 162) as [U UU]. destruct (c93_meaning 162 U guesser srcd 3 UU srcd_valid srcd_blinded) as ([k K] & [k0 K0] & _).
  exists U, k, k0. split; [exact UU|split; [exact guesser_modest|split; [exact srcd_valid|split; [exact srcd_blinded|split; assumption]]]].
Qed.
Lemma c93_hiding_case : exists U k1 k2, universe 162 U /\ (forall c, modest 162 1 (guesser c)) /\
  valid_source srcd /\ valid_source srcd' /\ blinded 3 srcd /\ blinded 3 srcd' /\ ms_messages srcd <> ms_messages srcd' /\
  counts (guesses U srcd guesser) k1 /\ counts (guesses U srcd' guesser) k2.
Proof.
  destruct (all_strings 162) as [U UU]. destruct (c93_meaning 162 U guesser srcd 3 UU srcd_valid srcd_blinded) as ([k K] & _).
  destruct (c93_meaning 162 U guesser srcd' 3 UU srcd'_valid srcd'_blinded) as ([k' K'] & _).
  exists U, k, k'. split; [exact UU|split; [exact guesser_modest|]]. split; [exact srcd_valid|split; [exact srcd'_valid|]].
  split; [exact srcd_blinded|split; [exact srcd'_blinded|split; [exact srcd_differ|split; assumption]]].
Qed.
Lemma c93_numbers_case : (N.of_nat 1 <= 2 ^ 40)%N /\ blinded 16 srcd /\ blinded 16 srcd'.
Proof.
  split; [vm_compute; discriminate|]. split.
  - destruct srcd_blinded as (S & t & E & D & F). split; [exact S|]. exists t. split; [exact E|split; [lia|exact F]].
  - destruct srcd'_blinded as (S & t & E & D & F). split; [exact S|]. exists t. split; [exact E|split; [lia|exact F]].
Qed.
Lemma c93_search_case : exists U t1 t2, universe 162 U /\ valid_source srcd /\ valid_source srcd' /\
  try_commit srcd (Some 0%N) = Ret (Ok t1) /\ try_commit srcd' (Some 0%N) = Ret (Ok t2) /\ mt_depth t1 <= 3 /\ mt_depth t2 <= 3 /\
  ms_messages srcd <> ms_messages srcd'.
Proof.
  destruct (all_strings 162) as [U UU]. destruct srcd_blinded as (_ & t1 & E1 & D1 & _), srcd'_blinded as (_ & t2 & E2 & D2 & _).
  exists U, t1, t2. split; [exact UU|split; [exact srcd_valid|split; [exact srcd'_valid|]]].
  split; [exact E1|split; [exact E2|split; [exact D1|split; [exact D2|exact srcd_differ]]]].
Qed.
(** One message in a tree of depth 0 *)
Lemma c93_full_case : exists U t1 t2,
  let one := MultiSource Sha256t 0 [(p1, m1)] None in let other := MultiSource Sha256t 0 [(p1, m2)] None in
  universe 162 U /\ valid_source one /\ valid_source other /\
  try_commit one (Some 0%N) = Ret (Ok t1) /\ try_commit other (Some 0%N) = Ret (Ok t2) /\ mt_depth t1 <= 0 /\ mt_depth t2 <= 0 /\
  ms_messages one <> ms_messages other /\ (N.of_nat (length (ms_messages one)) = 2 ^ N.of_nat (mt_depth t1))%N.
Proof.
  destruct (all_strings 162) as [U UU]. exists U. eexists _, _. cbv zeta. split; [exact UU|split; [vsrc|split; [vsrc|]]].
  split; [comp|split; [comp|split; [vm_compute; lia|split; [vm_compute; lia|split; [vm_compute; discriminate|reflexivity]]]]].
Qed.
Lemma c93_meaning_case : valid_source srcd /\ blinded 3 srcd.
Proof. split; [exact srcd_valid|exact srcd_blinded]. Qed.
