(** Cases for the theorems about finding a concealed message. *)
From Verif Require Import Base BaseFacts OrdMap Strict Merkle MpcAtoms MpcTree MpcBlock.
From Verif Require Import SpecHash SpecTree SpecFull SpecLocal SpecCommit SpecValid SpecCount SpecGame SpecHideGame SpecViewGame SpecBlockGame SpecTalk SpecMany SpecSeek.
From Verif Require Import CountProofs HideProofs TheoremsMpc TheoremsHide CasesMpc CasesMisc CasesMore CasesExt TheoremsGame TheoremsHideGame CasesHideGame TheoremsViewGame CasesViewGame TheoremsBlockGame CasesBlockGame TheoremsTalk CasesTalk TheoremsSeek.
From Verif Require Import SpecGame.
Local Open Scope nat_scope.

(** Two commitments with the same message for [p3]; the adversary has everything else of the second revealed. *)
Definition nosy : seek bytes32 := SeekOpen 1 (OpenBlock [p1; p2]) (fun y =>
  match y with GivenBlock b => sift p3 p2 [m1; m2] | _ => SeekEnd m2 end).
Lemma p3_not : p1 <> p3 /\ p2 <> p3.
Proof. split; intros E; apply (f_equal b32) in E; vm_compute in E; discriminate E. Qed.
Lemma m1_not : m1 <> m2.
Proof. intros E; apply (f_equal b32) in E; vm_compute in E; discriminate E. Qed.
Lemma sift_tactful srcs : nth_error srcs 0 = Some srcd -> tactful srcs p3 2 (sift p3 p2 [m1; m2]).
Proof.
  intros E th. split.
  - exists srcd. split; [exact E|]. intros x [<-|[]]. split; [apply p3_not|]. exists m2. right. left. reflexivity.
  - intros [b|pf|c]; [exact I| |exact I]. apply winnow_tactful. cbn. lia.
Qed.
Lemma nosy_tactful : tactful [srcd; src0] p3 2 nosy.
Proof.
  split.
  - exists src0. split; [reflexivity|]. intros x [<-|[<-|[]]]; (split; [apply p3_not|]); [exists m1|exists m2]; cbn; tauto.
  - intros [b|pf|c]; [apply sift_tactful; reflexivity|exact I|exact I].
Qed.
Lemma both_valid : Forall valid_source [srcd; src0].
Proof. constructor; [exact srcd_valid|constructor; [vsrc|constructor]]. Qed.
Lemma both_made : commit_each [srcd; src0] [0%N; 0%N] [treed; t0].
Proof. constructor; [reflexivity|exact treed_made|]. constructor; [reflexivity|comp|constructor]. Qed.
Lemma two_messages_differ : NoDup [m1; m2].
Proof. constructor; [intros [E|[]]; symmetry in E; exact (m1_not E)|repeat constructor; intros []]. Qed.
Lemma c119_hidden_case : exists U k, universe 162 U /\ Forall valid_source [srcd; src0] /\ commit_each [srcd; src0] [0%N; 0%N] [treed; t0] /\
  NoDup [m1; m2] /\ tactful [srcd; src0] p3 2 nosy /\ (forall a, length (filter (fun m => b32_eqb m a) [m1; m2]) <= 1) /\
  counts (told_about U [srcd; src0] [0%N; 0%N] p3 [m1; m2] b32_eqb nosy) k.
Proof.
  destruct (all_strings 162) as [U UU].
  destruct (c119_meaning bytes32 162 U 2 [srcd; src0] [0%N; 0%N] [treed; t0] p3 [m1; m2] b32_eqb nosy UU both_valid both_made two_messages_differ nosy_tactful (inhabits m1)) as ([k K] & _).
  exists U, k. split; [exact UU|split; [exact both_valid|split; [exact both_made|split; [exact two_messages_differ|split; [exact nosy_tactful|split; [|exact K]]]]]].
  intros a. apply one_equal, two_messages_differ.
Qed.
Lemma c119_found_case : exists U k, universe 162 U /\ Forall valid_source [srcd; src0] /\ commit_each [srcd; src0] [0%N; 0%N] [treed; t0] /\
  NoDup [m1; m2] /\ tactful [srcd; src0] p3 2 nosy /\ counts (told_about U [srcd; src0] [0%N; 0%N] p3 [m1; m2] b32_eqb nosy) k.
Proof. destruct c119_hidden_case as (U & k & A & B & C & D & E & _ & K). exists U, k. repeat (split; [assumption|]). exact K. Qed.
(** Is the message [m1]?  Asks for the commitment only. *)
Definition doubting : seek bool := SeekOpen 0 OpenCommitment (fun y =>
  match y with GivenCommitment c => SeekHash c (fun a => SeekEnd (b32_eqb a c)) | _ => SeekEnd true end).
Lemma c119_property_case : exists U k, universe 162 U /\ Forall valid_source [srcd; src0] /\ commit_each [srcd; src0] [0%N; 0%N] [treed; t0] /\
  NoDup [m1; m2] /\ tactful [srcd; src0] p3 1 doubting /\
  length (filter (b32_eqb m1) [m1; m2]) = length (filter (fun m => negb (b32_eqb m1 m)) [m1; m2]) /\
  counts (told_about U [srcd; src0] [0%N; 0%N] p3 [m1; m2] (fun m b => Bool.eqb (b32_eqb m1 m) b) doubting) k.
Proof.
  destruct (all_strings 162) as [U UU].
  assert (T : tactful [srcd; src0] p3 1 doubting).
  { split; [exists srcd; split; [reflexivity|intros x []]|]. intros [b|pf|c]; [exact I|exact I|]. intros a. exact I. }
  destruct (c119_meaning bool 162 U 1 [srcd; src0] [0%N; 0%N] [treed; t0] p3 [m1; m2] (fun m b => Bool.eqb (b32_eqb m1 m) b) doubting UU both_valid both_made two_messages_differ T (inhabits true)) as ([k K] & _).
  exists U, k. split; [exact UU|split; [exact both_valid|split; [exact both_made|split; [exact two_messages_differ|split; [exact T|split; [|exact K]]]]]].
  vm_compute. reflexivity.
Qed.
(** With the hash function [toy] the adversary finds the message [m1]. *)
Lemma c119_meaning_case : Forall valid_source [srcd; src0] /\ commit_each [srcd; src0] [0%N; 0%N] [treed; t0] /\ NoDup [m1; m2] /\
  tactful [srcd; src0] p3 2 nosy /\ inhabited bytes32 /\ sought toy (map (retell p3 m1) [treed; t0]) nosy m1 /\ sought toy (map (retell p3 m2) [treed; t0]) nosy m2.
Proof.
  split; [exact both_valid|split; [exact both_made|split; [exact two_messages_differ|split; [exact nosy_tactful|split; [exact (inhabits m1)|]]]]].
  split; apply (p_seek_exec toy m1 _ _ _ p3 _ both_valid both_made nosy 2 nosy_tactful); comp.
Qed.
Lemma c119_numbers_case : exists U S k all, universe 162 U /\ NoDup S /\ (forall m : bytes32, In m S) /\ tactful [srcd; src0] p3 2 nosy /\ (N.of_nat 2 < 2 ^ 128)%N /\
  counts (told_about U [srcd; src0] [0%N; 0%N] p3 S b32_eqb nosy) k /\ counts (told_about U [srcd; src0] [0%N; 0%N] p3 S (fun _ _ => true) nosy) all.
Proof.
  destruct (all_strings 162) as [U UU]. destruct all_ids as (S & NS & IS & _).
  destruct (c119_meaning bytes32 162 U 2 [srcd; src0] [0%N; 0%N] [treed; t0] p3 S b32_eqb nosy UU both_valid both_made NS nosy_tactful (inhabits m1)) as ([k K] & _ & C).
  exists U, S, k. eexists. split; [exact UU|split; [exact NS|split; [exact IS|split; [exact nosy_tactful|split; [reflexivity|split; [exact K|exact C]]]]]].
Qed.
Lemma c119_sharp_case : exists U, universe 162 U /\ valid_source srcd /\ (0 < 2 ^ 64)%N /\ try_commit srcd (Some 0%N) = Ret (Ok treed) /\
  In (p3, m1) (ms_messages srcd) /\ (exists y, In (p2, y) (ms_messages srcd)) /\ side_by_side treed p3 p2 /\ NoDup [m1; m2] /\ length [m1; m2] = S 1.
Proof.
  destruct (all_strings 162) as [U UU]. exists U. split; [exact UU|split; [exact srcd_valid|split; [reflexivity|split; [exact treed_made|]]]].
  split; [cbn; tauto|split; [exists m2; cbn; tauto|split; [|split; [exact two_messages_differ|reflexivity]]]].
  exists 1%N. right. split; vm_compute; reflexivity.
Qed.
