(** Cases for the theorems about chosen sets of messages. *)
From Verif Require Import Base BaseFacts OrdMap Strict Merkle MpcAtoms MpcTree MpcBlock.
From Verif Require Import SpecHash SpecTree SpecFull SpecValid SpecGame SpecHideGame SpecPick.
From Verif Require Import TheoremsMpc CasesMpc CasesMisc CasesMore CasesExt TheoremsGame TheoremsHideGame CasesHideGame TheoremsPick.
Local Open Scope nat_scope.

(** The message for [p1] is given. *)
Definition with_message (h : bytes32) : multi_source := MultiSource Sha256t 2 [(p1, h); (p2, m2); (p3, m1)] None.
Lemma with_message_good h : valid_source (with_message h) /\ blinded 3 (with_message h).
Proof.
  split; [unfold valid_source; split; [cbn; lia|split; [vm_compute; discriminate|split; [comp|exact I]]]|].
  split; [reflexivity|]. exists (MTree Sha256t 2 0 0 [(p1, h); (p2, m2); (p3, m1)] [(1%N, (p1, h)); (2%N, (p2, m2)); (3%N, (p3, m1))]).
  split; [comp|]. split; [cbn; lia|reflexivity].
Qed.
(** One pair; then a second pair with messages which depend on the commitment and on a hash; "yes" if the two commitments agree. *)
Definition haggler : bargain :=
  AskCommitment srcd srcd' (fun c => AskDigest (b32 c) (fun h =>
    AskCommitment (with_message h) (with_message c) (fun c2 => Decide (b32_eqb c c2)))).
Lemma haggler_proper : proper 162 3 1 2 haggler.
Proof.
  cbn [haggler proper]. split; [exact (conj srcd_valid srcd_blinded)|split; [exact (conj srcd'_valid srcd'_blinded)|]].
  intros c. rewrite b32_length. split; [lia|]. intros h. split; [apply with_message_good|split; [apply with_message_good|intros; exact I]].
Qed.
Lemma c116_choice_case : exists U k1 k2, universe 162 U /\ proper 162 3 1 2 haggler /\
  counts (picks_side U Debug 2 true haggler) k1 /\ counts (picks_side U Debug 2 (negb true) haggler) k2.
Proof.
  destruct (all_strings 162) as [U UU].
  destruct (c116_meaning 162 U 1 2 3 Debug haggler true UU haggler_proper) as (_ & [k1 K1] & _).
  destruct (c116_meaning 162 U 1 2 3 Debug haggler false UU haggler_proper) as (_ & [k2 K2] & _).
  exists U, k1, k2. split; [exact UU|split; [exact haggler_proper|split; assumption]].
Qed.
Lemma c116_meaning_case : proper 162 3 1 2 haggler /\ deals flat Debug true [3; 4]%N haggler true.
Proof.
  split; [exact haggler_proper|]. unfold haggler.
  eapply de_pair; [vm_compute; reflexivity|vm_compute; reflexivity|]. apply de_hash. eapply de_pair; [vm_compute; reflexivity|vm_compute; reflexivity|].
  match goal with |- deals _ _ _ _ (Decide ?b) _ => assert (E : b = true) by (vm_compute; reflexivity); rewrite E end. constructor.
Qed.
Lemma c116_numbers_case : proper 162 16 1 2 haggler /\ (N.of_nat 1 <= 2 ^ 40)%N /\ (N.of_nat 2 <= 2 ^ 10)%N.
Proof.
  split; [|split; vm_compute; discriminate].
  assert (M : forall src, blinded 3 src -> blinded 16 src) by (intros src (S & t & E & L & F); split; [exact S|exists t; split; [exact E|split; [lia|exact F]]]).
  pose proof haggler_proper as P. cbn [haggler proper] in *. destruct P as ((V & B) & (V' & B') & P).
  split; [exact (conj V (M _ B))|split; [exact (conj V' (M _ B'))|]]. intros c. split; [apply P|]. intros h.
  destruct (with_message_good h) as [W X]. destruct (with_message_good c) as [W' X'].
  split; [exact (conj W (M _ X))|split; [exact (conj W' (M _ X'))|intros; exact I]].
Qed.
