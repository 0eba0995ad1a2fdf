(** Cases for the theorems about chosen sets of messages of which some are shown. *)
From Verif Require Import Base BaseFacts OrdMap Strict Merkle MpcAtoms MpcTree MpcBlock.
From Verif Require Import SpecHash SpecTree SpecFull SpecLocal SpecValid SpecGame SpecHideGame SpecViewGame SpecBlockGame SpecMany SpecPick SpecOffer.
From Verif Require Import HideProofs TheoremsMpc TheoremsHide CasesMpc CasesMisc CasesMore CasesExt TheoremsGame TheoremsHideGame CasesHideGame TheoremsViewGame CasesViewGame TheoremsBlockGame CasesBlockGame TheoremsMany CasesMany TheoremsPick CasesPick TheoremsOffer.
From Verif Require Import SpecGame.
Local Open Scope nat_scope.

(** Whatever the message for [p1], the block which shows only [p2] conceals the slots 0 and 1 (of which the first is empty) and 3. *)
Definition message_tree (h : bytes32) : merkle_tree :=
  MTree Sha256t 2 0 0 [(p1, h); (p2, m2); (p3, m1)] [(1%N, (p1, h)); (2%N, (p2, m2)); (3%N, (p3, m1))].
Lemma message_screened h c : screened_block (message_tree h) (message_tree c) [p2].
Proof.
  assert (Y : forall k a, vis (tcells (message_tree h)) (ConcealProofs.mem [p2]) k (a * 2 ^ N.of_nat k) = true -> shows (message_tree h) [p2] k a)
    by (intros k a V; apply shows_vis, V).
  assert (N : forall k a, vis (tcells (message_tree h)) (ConcealProofs.mem [p2]) k (a * 2 ^ N.of_nat k) = false -> ~ shows (message_tree h) [p2] k a)
    by (intros k a V S; apply shows_vis in S; congruence).
  intros k a (L & B & Hid & Up). replace (mt_depth (message_tree h)) with 2 in * by comp.
  destruct k as [|[|[|k]]]; [| | |lia].
  - change (2 ^ N.of_nat (2 - 0))%N with 4%N in B. destruct Up as [Up|Up]; [discriminate|].
    assert (a = 0 \/ a = 1 \/ a = 2 \/ a = 3)%N as [-> | [-> | [-> | ->]]] by lia.
    + exfalso. revert Up. apply N. comp.
    + exfalso. revert Up. apply N. comp.
    + exfalso. apply Hid, Y. comp.
    + right. intros i W. apply within_range in W. change (3 * 2 ^ N.of_nat 0)%N with 3%N in W. change (2 ^ N.of_nat 0)%N with 1%N in W.
      replace i with 3%N by lia. comp.
  - change (2 ^ N.of_nat (2 - 1))%N with 2%N in B. assert (a = 0 \/ a = 1)%N as [-> | ->] by lia.
    + left. exists 0%N, 0%N. repeat split; comp.
    + exfalso. apply Hid, Y. comp.
  - change (2 ^ N.of_nat (2 - 2))%N with 1%N in B. replace a with 0%N in * by lia. exfalso. apply Hid, Y. comp.
Qed.
Lemma message_alike h c : alike 2 [p2] (with_message h) (with_message c).
Proof.
  split; [apply with_message_good|split; [apply with_message_good|split; [reflexivity|split; [reflexivity|split; [reflexivity|split]]]]].
  - intros p [<-|[]]. exists m2. split; right; left; reflexivity.
  - exists (message_tree h), (message_tree c). split; [comp|split; [comp|split; [reflexivity|split; [reflexivity|split; [cbn; lia|apply message_screened]]]]].
Qed.
Definition first_hidden (b : merkle_block) : bytes32 := hd (b32_fill x00) (hidden_hashes (mb_cross_section b)).
(** One block; then a second pair with messages which depend on a concealed node and on a hash; "yes" if the blocks have a node in common. *)
Definition auction : offer :=
  OfferPair [p2] srcd srcd' (fun b => OfferHash (b32 (first_hidden b)) (fun h =>
    OfferPair [p2] (with_message h) (with_message (first_hidden b)) (fun b2 => OfferEnd (b32_eqb (first_hidden b) (first_hidden b2))))).
Lemma auction_decent : decent 162 2 1 2 auction.
Proof.
  cbn [auction decent]. split; [exact treed_alike|]. intros b. rewrite b32_length. split; [lia|]. intros h. split; [apply message_alike|intros; exact I].
Qed.
Lemma c117_choice_case : exists U k1 k2, universe 162 U /\ decent 162 2 1 2 auction /\
  counts (guesses_offer U Debug 2 true auction) k1 /\ counts (guesses_offer U Debug 2 (negb true) auction) k2.
Proof.
  destruct (all_strings 162) as [U UU].
  destruct (c117_meaning 162 U 1 2 2 Debug auction true UU auction_decent) as (_ & [k1 K1] & _).
  destruct (c117_meaning 162 U 1 2 2 Debug auction false UU auction_decent) as (_ & [k2 K2] & _).
  exists U, k1, k2. split; [exact UU|split; [exact auction_decent|split; assumption]].
Qed.
Lemma c117_meaning_case : decent 162 2 1 2 auction /\ offered toy Debug true [3; 4]%N auction false /\ offered flat Debug true [3; 4]%N auction true.
Proof.
  split; [exact auction_decent|split]; unfold auction.
  - eapply of_pair; [vm_compute; reflexivity|vm_compute; reflexivity|]. apply of_hash. eapply of_pair; [vm_compute; reflexivity|vm_compute; reflexivity|].
    match goal with |- offered _ _ _ _ (OfferEnd ?b) _ => assert (E : b = false) by (vm_compute; reflexivity); rewrite E end. constructor.
  - eapply of_pair; [vm_compute; reflexivity|vm_compute; reflexivity|]. apply of_hash. eapply of_pair; [vm_compute; reflexivity|vm_compute; reflexivity|].
    match goal with |- offered _ _ _ _ (OfferEnd ?b) _ => assert (E : b = true) by (vm_compute; reflexivity); rewrite E end. constructor.
Qed.
Lemma c117_numbers_case : decent 162 16 1 2 auction /\ (N.of_nat 1 <= 2 ^ 40)%N /\ (N.of_nat 2 <= 2 ^ 10)%N.
Proof.
  split; [|split; vm_compute; discriminate]. cbn [auction decent]. split; [eapply alike_wider; [|exact treed_alike]; lia|].
  intros b. rewrite b32_length. split; [lia|]. intros h. split; [eapply alike_wider; [|apply message_alike]; lia|intros; exact I].
Qed.
