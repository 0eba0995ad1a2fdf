(** Cases for the theorems about what a partially revealed block tells. *)
From Verif Require Import Base BaseFacts OrdMap Strict Merkle MpcAtoms MpcTree MpcBlock.
From Verif Require Import SpecHash SpecTree SpecFull SpecLocal SpecCommit SpecValid SpecGame SpecHideGame SpecViewGame SpecBlockGame.
From Verif Require Import HideProofs TheoremsMpc TheoremsHide CasesMpc CasesMisc CasesMore CasesExt TheoremsGame TheoremsHideGame CasesHideGame TheoremsViewGame CasesViewGame TheoremsBlockGame.
From Verif Require Import SpecGame.
Local Open Scope nat_scope.

(** Only [p2] is shown: the concealed subtrees are the slots 0 and 1 (of which the first is empty) and the slot 3. *)
Lemma treed_screened_block : screened_block treed treed' [p2].
Proof.
  assert (Y : forall k a, vis (tcells treed) (ConcealProofs.mem [p2]) k (a * 2 ^ N.of_nat k) = true -> shows treed [p2] k a)
    by (intros k a V; apply shows_vis, V).
  assert (N : forall k a, vis (tcells treed) (ConcealProofs.mem [p2]) k (a * 2 ^ N.of_nat k) = false -> ~ shows treed [p2] k a)
    by (intros k a V S; apply shows_vis in S; congruence).
  intros k a (L & B & Hid & Up). replace (mt_depth treed) with 2 in * by comp.
  destruct k as [|[|[|k]]]; [| | |lia].
  - change (2 ^ N.of_nat (2 - 0))%N with 4%N in B. destruct Up as [Up|Up]; [discriminate|].
    assert (a = 0 \/ a = 1 \/ a = 2 \/ a = 3)%N as [-> | [-> | [-> | ->]]] by lia.
    + exfalso. revert Up. apply N. comp.
    + exfalso. revert Up. apply N. comp.
    + exfalso. apply Hid, Y. comp.
    + right. intros i W. apply within_range in W. change (3 * 2 ^ N.of_nat 0)%N with 3%N in W. change (2 ^ N.of_nat 0)%N with 1%N in W.
      replace i with 3%N by lia. comp.
  - change (2 ^ N.of_nat (2 - 1))%N with 2%N in B. assert (a = 0 \/ a = 1)%N as [-> | ->] by lia.
    + left. exists 0%N, 0%N. repeat split; comp.
    + exfalso. apply Hid, Y. comp.
  - change (2 ^ N.of_nat (2 - 2))%N with 1%N in B. replace a with 0%N in * by lia. exfalso. apply Hid, Y. comp.
Qed.
Lemma treed_tops : concealed_top treed [p2] 1 0 /\ concealed_top treed [p2] 0 3.
Proof.
  split; (split; [vm_compute; lia|split; [comp|split; [|right; apply shows_vis; comp]]]); intros S; apply shows_vis in S; vm_compute in S; discriminate.
Qed.
(** Asks whether the hash of a string is among the concealed nodes. *)
Definition seeker (b : merkle_block) : prog bool :=
  Ask [x01] (fun a => Done (existsb (fun n => match n with ConcealedNode _ h => b32_eqb a h | _ => false end) (mb_cross_section b))).
Lemma seeker_modest b : modest 162 1 (seeker b).
Proof. cbn. split; [lia|intros; exact I]. Qed.
Lemma treed_shared p : In p [p2] -> exists m, In (p, m) (ms_messages srcd) /\ In (p, m) (ms_messages srcd').
Proof. intros [<-|[]]. exists m2. split; right; left; reflexivity. Qed.

Lemma c95_hidden_case : exists U k1 k2, universe 162 U /\ (forall b, modest 162 1 (seeker b)) /\
  valid_source srcd /\ valid_source srcd' /\ ms_static_entropy srcd = None /\ ms_static_entropy srcd' = None /\
  try_commit srcd (Some 0%N) = Ret (Ok treed) /\ try_commit srcd' (Some 0%N) = Ret (Ok treed') /\
  ms_method srcd = ms_method srcd' /\ mt_depth treed = mt_depth treed' /\ mt_cofactor treed = mt_cofactor treed' /\ mt_depth treed <= 2 /\
  (forall p, In p [p2] -> exists m, In (p, m) (ms_messages srcd) /\ In (p, m) (ms_messages srcd')) /\
  screened_block treed treed' [p2] /\ concealed_top treed [p2] 1 0 /\ concealed_top treed [p2] 0 3 /\ slot_of treed 1 <> slot_of treed' 1 /\
  counts (guesses_block U srcd [p2] seeker) k1 /\ counts (guesses_block U srcd' [p2] seeker) k2.
Proof.
  destruct (all_strings 162) as [U UU].
  destruct (c95_meaning 162 U seeker srcd treed [p2] UU srcd_valid eq_refl treed_made) as ([k1 C1] & _);
    [intros p I; destruct (treed_shared p I) as (m & X & _); exists m; exact X|].
  destruct (c95_meaning 162 U seeker srcd' treed' [p2] UU srcd'_valid eq_refl treed'_made) as ([k2 C2] & _);
    [intros p I; destruct (treed_shared p I) as (m & _ & X); exists m; exact X|].
  exists U, k1, k2. split; [exact UU|split; [exact seeker_modest|split; [exact srcd_valid|split; [exact srcd'_valid|]]]].
  split; [reflexivity|split; [reflexivity|split; [exact treed_made|split; [exact treed'_made|]]]].
  split; [reflexivity|split; [comp|split; [comp|split; [vm_compute; lia|]]]].
  split; [exact treed_shared|split; [exact treed_screened_block|]].
  split; [apply treed_tops|split; [apply treed_tops|split; [exact treed_differ|split; assumption]]].
Qed.
Lemma c95_meaning_case : valid_source srcd /\ try_commit srcd (Some 0%N) = Ret (Ok treed) /\
  (forall p, In p [p2; p3] -> exists m, In (p, m) (ms_messages srcd)).
Proof.
  split; [exact srcd_valid|split; [exact treed_made|]]. intros p [<-|[<-|[]]]; [exists m2; right; left; reflexivity|exists m1; right; right; left; reflexivity].
Qed.
Lemma c95_numbers_case : (N.of_nat 1 <= 2 ^ 40)%N /\ mt_depth treed <= 16 /\ screened_block treed treed' [p2].
Proof. split; [vm_compute; discriminate|split; [vm_compute; lia|exact treed_screened_block]]. Qed.
Lemma c95_seen_case : exists U, universe 162 U /\ valid_source srcd /\ valid_source srce /\
  try_commit srcd (Some 0%N) = Ret (Ok treed) /\ try_commit srce (Some 0%N) = Ret (Ok treee) /\
  mt_depth treed = mt_depth treee /\ mt_cofactor treed = mt_cofactor treee /\ mt_depth treed <= 2 /\
  (forall p, In p [p3] -> exists m, In (p, m) (ms_messages srcd) /\ In (p, m) (ms_messages srce)) /\
  concealed_top treed [p3] 0 2 /\ (forall i, within 0 2 i -> slot_of treed i <> None) /\ within 0 2 2 /\ slot_of treed 2 <> slot_of treee 2.
Proof.
  destruct (all_strings 162) as [U UU]. exists U. split; [exact UU|split; [exact srcd_valid|split; [vsrc|]]].
  split; [exact treed_made|split; [comp|split; [comp|split; [comp|split; [vm_compute; lia|]]]]].
  split; [intros p [<-|[]]; exists m1; split; right; right; left; reflexivity|].
  split; [split; [vm_compute; lia|split; [comp|split; [|right; apply shows_vis; comp]]]; intros S; apply shows_vis in S; vm_compute in S; discriminate|].
  split; [|split; [comp|vm_compute; discriminate]].
  intros i B. apply within_range in B. change (2 * 2 ^ N.of_nat 0)%N with 2%N in B. change (2 ^ N.of_nat 0)%N with 1%N in B.
  replace i with 2%N by lia. vm_compute. discriminate.
Qed.
