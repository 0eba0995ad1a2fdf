(** Cases for the theorems about adversaries asking for proofs and blocks of several commitments. *)
From Verif Require Import Base BaseFacts OrdMap Strict Merkle MpcAtoms MpcTree MpcBlock.
From Verif Require Import SpecHash SpecTree SpecFull SpecLocal SpecCommit SpecValid SpecGame SpecHideGame SpecViewGame SpecBlockGame SpecTalk SpecMany.
From Verif Require Import HideProofs TheoremsMpc TheoremsHide CasesMpc CasesMisc CasesMore CasesExt TheoremsGame TheoremsHideGame CasesHideGame TheoremsViewGame CasesViewGame TheoremsBlockGame CasesBlockGame TheoremsTalk CasesTalk TheoremsMany.
From Verif Require Import SpecGame.
Local Open Scope nat_scope.

(** Asks for the commitments of both, hashes the first, and for a proof from the second or the first one. *)
Definition compare : talks :=
  TalksOpen 0 OpenCommitment (fun c => match c with
  | GivenCommitment c => TalksOpen 1 OpenCommitment (fun d => match d with
      | GivenCommitment d => TalksHash c (fun h => TalksOpen (if b32_eqb h d then 1 else 0) (OpenProof p2) (fun x => match x with
          | GivenProof pf => Says (existsb (b32_eqb d) (mp_path pf))
          | _ => Says true end))
      | _ => Says false end)
  | _ => Says true
  end).
Lemma compare_polite : polite_all [[p2]; [p2]] 162 1 3 compare.
Proof.
  split; [exists [p2]; split; [reflexivity|intros x []]|]. intros [b|pf|c]; [exact I|exact I|].
  split; [exists [p2]; split; [reflexivity|intros x []]|]. intros [b|pf|d]; [exact I|exact I|].
  split; [rewrite (b32_length c); lia|]. intros h.
  split; [exists [p2]; split; [destruct (b32_eqb h d); reflexivity|intros x X; exact X]|]. intros [b|pf|y]; exact I.
Qed.
(** The first source is exchanged, the second one stays. *)
Lemma treed_alike : alike 2 [p2] srcd srcd'.
Proof.
  split; [exact srcd_valid|split; [exact srcd'_valid|split; [reflexivity|split; [reflexivity|split; [reflexivity|split; [exact treed_shared|]]]]]].
  exists treed, treed'. split; [exact treed_made|split; [exact treed'_made|split; [comp|split; [comp|split; [vm_compute; lia|exact treed_screened_block]]]]].
Qed.
Lemma treed_alike_self : alike 2 [p2] srcd srcd.
Proof.
  split; [exact srcd_valid|split; [exact srcd_valid|split; [reflexivity|split; [reflexivity|split; [reflexivity|split]]]]].
  - intros p I. destruct (treed_shared p I) as (m & X & _). exists m. split; exact X.
  - exists treed, treed. split; [exact treed_made|split; [exact treed_made|split; [reflexivity|split; [reflexivity|split; [vm_compute; lia|]]]]].
    intros k a _. right. intros i _. reflexivity.
Qed.
Lemma treed_alike_each : alike_each 2 [[p2]; [p2]] [srcd; srcd] [srcd'; srcd].
Proof. constructor; [exact treed_alike|constructor; [exact treed_alike_self|constructor]]. Qed.
Lemma alike_wider D D' ids a b : D <= D' -> alike D ids a b -> alike D' ids a b.
Proof.
  intros L (V1 & V2 & S1 & S2 & QM & SH & t1 & t2 & E1 & E2 & QD & QC & Ld & SC).
  split; [exact V1|split; [exact V2|split; [exact S1|split; [exact S2|split; [exact QM|split; [exact SH|]]]]]].
  exists t1, t2. split; [exact E1|split; [exact E2|split; [exact QD|split; [exact QC|split; [lia|exact SC]]]]].
Qed.
Lemma c102_hidden_case : exists U k1 k2, universe 162 U /\ polite_all [[p2]; [p2]] 162 1 3 compare /\
  alike_each 2 [[p2]; [p2]] [srcd; srcd] [srcd'; srcd] /\ slot_of treed 1 <> slot_of treed' 1 /\
  counts (guesses_all U [srcd; srcd] compare) k1 /\ counts (guesses_all U [srcd'; srcd] compare) k2.
Proof.
  destruct (all_strings 162) as [U UU].
  destruct (c102_meaning 162 U 1 3 2 compare [[p2]; [p2]] [srcd; srcd] [srcd'; srcd] UU (le_n _) compare_polite treed_alike_each) as ([k1 C1] & _).
  assert (R : alike_each 2 [[p2]; [p2]] [srcd'; srcd] [srcd'; srcd]).
  { constructor; [|constructor; [exact treed_alike_self|constructor]].
    split; [exact srcd'_valid|split; [exact srcd'_valid|split; [reflexivity|split; [reflexivity|split; [reflexivity|split]]]]].
    - intros p I. destruct (treed_shared p I) as (m & _ & X). exists m. split; exact X.
    - exists treed', treed'. split; [exact treed'_made|split; [exact treed'_made|split; [reflexivity|split; [reflexivity|split; [vm_compute; lia|]]]]].
      intros k a _. right. intros i _. reflexivity. }
  destruct (c102_meaning 162 U 1 3 2 compare [[p2]; [p2]] [srcd'; srcd] [srcd'; srcd] UU (le_n _) compare_polite R) as ([k2 C2] & _).
  exists U, k1, k2. split; [exact UU|split; [exact compare_polite|split; [exact treed_alike_each|split; [exact treed_differ|split; assumption]]]].
Qed.
Lemma c102_meaning_case : polite_all [[p2]; [p2]] 162 1 3 compare /\ alike_each 2 [[p2]; [p2]] [srcd; srcd] [srcd'; srcd] /\
  commit_each [srcd; srcd] [0%N; 5%N] [treed; with_entropy treed 5] /\ ends_all toy [treed; with_entropy treed 5] compare false.
Proof.
  split; [exact compare_polite|split; [exact treed_alike_each|split]].
  - constructor; [reflexivity|exact treed_made|]. constructor; [reflexivity|exact (commit_entropy srcd 0 5 treed eq_refl treed_made)|constructor].
  - apply (p_talks_exec toy 162 [[p2]; [p2]] [treed; with_entropy treed 5] compare eq_refl) with (q := 1) (v := 3); [|exact compare_polite|comp].
    assert (F : fine 2 [p2] srcd treed).
    { split; [exact srcd_valid|split; [reflexivity|split; [exact treed_made|split; [|vm_compute; lia]]]].
      intros p I. destruct (treed_shared p I) as (m & X & _). exists m. exact X. }
    intros [|[|[|i]]] ids t Ni Nt; try discriminate; injection Ni as <-; injection Nt as <-.
    + exact (fine_answers toy 2 [p2] srcd treed 0 F).
    + exact (fine_answers toy 2 [p2] srcd treed 5 F).
Qed.
Lemma c102_numbers_case : (N.of_nat 1 <= 2 ^ 40)%N /\ (N.of_nat 3 <= 2 ^ 20)%N /\ (N.of_nat (length [[p2]; [p2]]) <= 2 ^ 10)%N /\
  polite_all [[p2]; [p2]] 162 1 3 compare /\ alike_each 16 [[p2]; [p2]] [srcd; srcd] [srcd'; srcd].
Proof.
  split; [vm_compute; discriminate|split; [vm_compute; discriminate|split; [vm_compute; discriminate|split; [exact compare_polite|]]]].
  constructor; [eapply alike_wider; [|exact treed_alike]; lia|constructor; [eapply alike_wider; [|exact treed_alike_self]; lia|constructor]].
Qed.
Lemma c102_contains_case : polite [p2] 162 2 3 curious.
Proof. exact curious_polite. Qed.
