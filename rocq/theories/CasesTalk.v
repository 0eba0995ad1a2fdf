(** Cases for the theorems about adversaries asking for proofs and blocks one after another. *)
From Verif Require Import Base BaseFacts OrdMap Strict Merkle MpcAtoms MpcTree MpcBlock.
From Verif Require Import SpecHash SpecTree SpecFull SpecLocal SpecCommit SpecValid SpecGame SpecHideGame SpecViewGame SpecBlockGame SpecTalk.
From Verif Require Import HideProofs TheoremsMpc TheoremsHide CasesMpc CasesMisc CasesMore CasesExt TheoremsGame TheoremsHideGame CasesHideGame TheoremsViewGame CasesViewGame TheoremsBlockGame CasesBlockGame TheoremsTalk.
From Verif Require Import SpecGame.
Local Open Scope nat_scope.

(** Asks for the commitment, hashes it, asks for the proof of [p2], and for a block when the hash is in the proof. *)
Definition curious : talk :=
  TalkOpen OpenCommitment (fun c => match c with
  | GivenCommitment c => TalkHash c (fun h =>
      TalkOpen (OpenProof p2) (fun x => match x with
      | GivenProof pf => if existsb (b32_eqb h) (mp_path pf)
                         then TalkOpen (OpenBlock [p2]) (fun y => match y with GivenBlock b => alone (seeker b) | _ => Say false end)
                         else Say true
      | _ => Say false
      end))
  | _ => Say true
  end).
Lemma curious_polite : polite [p2] 162 2 3 curious.
Proof.
  split; [intros x []|]. intros [b|pf|c]; [exact I|exact I|]. split; [rewrite (b32_length c); lia|]. intros h.
  split; [intros x X; exact X|]. intros [b|pf|d]; [exact I| |exact I]. destruct (existsb _ _); [|exact I].
  split; [intros x X; exact X|]. intros [b|pf'|d]; [|exact I|exact I]. apply alone_polite, seeker_modest.
Qed.
Lemma c101_hidden_case : exists U k1 k2, universe 162 U /\ polite [p2] 162 2 3 curious /\
  valid_source srcd /\ valid_source srcd' /\ ms_static_entropy srcd = None /\ ms_static_entropy srcd' = None /\
  try_commit srcd (Some 0%N) = Ret (Ok treed) /\ try_commit srcd' (Some 0%N) = Ret (Ok treed') /\
  ms_method srcd = ms_method srcd' /\ mt_depth treed = mt_depth treed' /\ mt_cofactor treed = mt_cofactor treed' /\ mt_depth treed <= 2 /\
  (forall p, In p [p2] -> exists m, In (p, m) (ms_messages srcd) /\ In (p, m) (ms_messages srcd')) /\
  screened_block treed treed' [p2] /\ slot_of treed 1 <> slot_of treed' 1 /\
  counts (guesses_talk U srcd curious) k1 /\ counts (guesses_talk U srcd' curious) k2.
Proof.
  destruct (all_strings 162) as [U UU].
  destruct (c101_meaning 162 U 2 3 curious srcd treed [p2] UU srcd_valid curious_polite eq_refl treed_made) as ([k1 C1] & _);
    [intros p I; destruct (treed_shared p I) as (m & X & _); exists m; exact X|].
  destruct (c101_meaning 162 U 2 3 curious srcd' treed' [p2] UU srcd'_valid curious_polite eq_refl treed'_made) as ([k2 C2] & _);
    [intros p I; destruct (treed_shared p I) as (m & _ & X); exists m; exact X|].
  exists U, k1, k2. split; [exact UU|split; [exact curious_polite|split; [exact srcd_valid|split; [exact srcd'_valid|]]]].
  split; [reflexivity|split; [reflexivity|split; [exact treed_made|split; [exact treed'_made|]]]].
  split; [reflexivity|split; [comp|split; [comp|split; [vm_compute; lia|]]]].
  split; [exact treed_shared|split; [exact treed_screened_block|split; [exact treed_differ|split; assumption]]].
Qed.
(** With the hash function [toy] the talk about [srcd] ends. *)
Lemma c101_meaning_case : valid_source srcd /\ try_commit srcd (Some 0%N) = Ret (Ok treed) /\ polite [p2] 162 2 3 curious /\
  (forall p, In p [p2] -> exists m, In (p, m) (ms_messages srcd)) /\ ends toy treed curious true.
Proof.
  split; [exact srcd_valid|split; [exact treed_made|split; [exact curious_polite|]]].
  split; [intros p I; destruct (treed_shared p I) as (m & X & _); exists m; exact X|].
  apply (p_talk_exec toy srcd 0%N treed [p2] srcd_valid treed_made) with (n := 162) (q := 2) (v := 3); [|exact curious_polite|comp].
  intros p I; destruct (treed_shared p I) as (m & X & _); exists m; exact X.
Qed.
Lemma c101_numbers_case : (N.of_nat 2 <= 2 ^ 40)%N /\ (N.of_nat 3 <= 2 ^ 20)%N /\ mt_depth treed <= 16 /\ polite [p2] 162 2 3 curious /\ screened_block treed treed' [p2].
Proof. split; [vm_compute; discriminate|split; [vm_compute; discriminate|split; [vm_compute; lia|split; [exact curious_polite|exact treed_screened_block]]]]. Qed.
Lemma c101_contains_case : forall b, modest 162 1 (seeker b).
Proof. exact seeker_modest. Qed.
Lemma c101_seen_case : exists U, universe 162 U /\ valid_source srcd /\ valid_source srce /\
  try_commit srcd (Some 0%N) = Ret (Ok treed) /\ try_commit srce (Some 0%N) = Ret (Ok treee) /\
  mt_depth treed = mt_depth treee /\ mt_cofactor treed = mt_cofactor treee /\ mt_depth treed <= 2 /\
  (forall p, In p [p3] -> exists m, In (p, m) (ms_messages srcd) /\ In (p, m) (ms_messages srce)) /\
  concealed_top treed [p3] 0 2 /\ (forall i, within 0 2 i -> slot_of treed i <> None) /\ within 0 2 2 /\ slot_of treed 2 <> slot_of treee 2.
Proof. exact c95_seen_case. Qed.
