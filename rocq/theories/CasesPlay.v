(** Cases for the theorems about openings in any order. *)
From Verif Require Import Base BaseFacts OrdMap Strict Merkle MpcAtoms MpcTree MpcBlock.
From Verif Require Import SpecHash SpecTree SpecFull SpecLocal SpecValid SpecGame SpecHideGame SpecViewGame SpecBlockGame SpecTalk SpecMany SpecPick SpecOffer SpecPlay.
From Verif Require Import HideProofs TheoremsMpc TheoremsHide CasesMpc CasesMisc CasesMore CasesExt TheoremsGame TheoremsHideGame CasesHideGame TheoremsViewGame CasesViewGame TheoremsBlockGame CasesBlockGame TheoremsMany CasesMany TheoremsPick CasesPick TheoremsOffer CasesOffer TheoremsPlay.
From Verif Require Import SpecGame.
Local Open Scope nat_scope.

(** The commitment alone may be asked for if both trees have an empty slot. *)
Lemma closed_screened t1 t2 i1 i2 : slot_of t1 i1 = None -> slot_of t2 i2 = None -> (i1 < 2 ^ N.of_nat (mt_depth t1))%N -> (i2 < 2 ^ N.of_nat (mt_depth t1))%N ->
  screened_block t1 t2 [].
Proof.
  intros N1 N2 B1 B2 k a (L & B & _ & [->|(i & p & m & _ & _ & [])]). rewrite Nat.sub_diag in B. change (2 ^ N.of_nat 0)%N with 1%N in B.
  left. exists i1, i2. unfold within. rewrite !N.div_small by assumption. assert (a = 0%N) by lia. auto.
Qed.
Lemma treed_alike_closed : alike 2 [] srcd srcd'.
Proof.
  split; [exact srcd_valid|split; [exact srcd'_valid|split; [reflexivity|split; [reflexivity|split; [reflexivity|split; [intros p []|]]]]]].
  exists treed, treed'. split; [exact treed_made|split; [exact treed'_made|split; [comp|split; [comp|split; [vm_compute; lia|]]]]].
  apply (closed_screened treed treed' 0 0); comp.
Qed.
Lemma alike_fit D ids v w : alike D ids v w -> fit D v /\ fit D w.
Proof.
  intros (V1 & V2 & S1 & S2 & _ & _ & t1 & t2 & E1 & E2 & QD & _ & L & _).
  split; (split; [assumption|split; [assumption|]]); [exists t1|exists t2]; (split; [assumption|lia]).
Qed.
Definition the_id (x : opened) : bytes32 := match x with GivenCommitment c => c | _ => b32_fill x00 end.
Definition the_hidden (x : opened) : bytes32 := match x with GivenBlock b => first_hidden b | _ => b32_fill x00 end.
Definition the_path (x : opened) : bytes32 := match x with GivenProof pf => hd (b32_fill x00) (mp_path pf) | _ => b32_fill xff end.
(** One commitment; then a second pair with messages which depend on it and on a hash, a block of the second pair and, last, a proof
    of the first pair; "yes" if a concealed node of the block is the first on the path of the proof. *)
Definition duel : play :=
  PlayPair srcd srcd' (PlayOpen 0 OpenCommitment (fun x => PlayHash (b32 (the_id x)) (fun h =>
    PlayPair (with_message h) (with_message (the_id x)) (PlayOpen 1 (OpenBlock [p2]) (fun y =>
      PlayOpen 0 (OpenProof p2) (fun z => PlayEnd (b32_eqb (the_hidden y) (the_path z)))))))).
Lemma duel_orderly D : 2 <= D -> orderly 162 D 1 3 2 [] duel.
Proof.
  intros L. cbn [duel orderly app].
  pose proof (alike_wider 2 D [] _ _ L treed_alike_closed) as A0. pose proof (alike_wider 2 D [p2] _ _ L treed_alike) as A1.
  split; [apply (alike_fit D [] _ _ A0)|split; [apply (alike_fit D [] _ _ A0)|split]]; [exists srcd, srcd'; split; [reflexivity|exact A0]|].
  intros x. rewrite b32_length. split; [lia|]. intros h. pose proof (alike_wider 2 D [p2] _ _ L (message_alike h (the_id x))) as A2.
  split; [apply (alike_fit D _ _ _ A2)|split; [apply (alike_fit D _ _ _ A2)|split]]; [exists (with_message h), (with_message (the_id x)); split; [reflexivity|exact A2]|].
  intros y. split; [exists srcd, srcd'; split; [reflexivity|exact A1]|intros; exact I].
Qed.
Lemma c118_choice_case : exists U k1 k2, universe 162 U /\ orderly 162 2 1 3 2 [] duel /\
  counts (guesses_play U 2 true duel) k1 /\ counts (guesses_play U 2 (negb true) duel) k2.
Proof.
  destruct (all_strings 162) as [U UU]. pose proof (duel_orderly 2 (le_n _)) as O.
  destruct (c118_meaning 162 U 1 3 2 2 duel true UU O) as (_ & [k1 K1] & _).
  destruct (c118_meaning 162 U 1 3 2 2 duel false UU O) as (_ & [k2 K2] & _).
  exists U, k1, k2. split; [exact UU|split; [exact O|split; assumption]].
Qed.
Lemma c118_meaning_case : orderly 162 2 1 3 2 [] duel /\ played toy true [3; 4]%N [] duel false /\ played flat true [3; 4]%N [] duel true.
Proof.
  split; [exact (duel_orderly 2 (le_n _))|split]; unfold duel.
  - eapply pl_pair; [vm_compute; reflexivity|]. cbn [app]. eapply (pl_open _ _ _ _ _ _ _ _ (GivenCommitment _)); [reflexivity|vm_compute; reflexivity|]. apply pl_hash.
    eapply pl_pair; [vm_compute; reflexivity|]. eapply (pl_open _ _ _ _ _ _ _ _ (GivenBlock _)); [reflexivity|eexists; vm_compute; reflexivity|].
    eapply (pl_open _ _ _ _ _ _ _ _ (GivenProof _)); [reflexivity|vm_compute; reflexivity|].
    match goal with |- played _ _ _ _ (PlayEnd ?b) _ => assert (E : b = false) by (vm_compute; reflexivity); rewrite E end. constructor.
  - eapply pl_pair; [vm_compute; reflexivity|]. cbn [app]. eapply (pl_open _ _ _ _ _ _ _ _ (GivenCommitment _)); [reflexivity|vm_compute; reflexivity|]. apply pl_hash.
    eapply pl_pair; [vm_compute; reflexivity|]. eapply (pl_open _ _ _ _ _ _ _ _ (GivenBlock _)); [reflexivity|eexists; vm_compute; reflexivity|].
    eapply (pl_open _ _ _ _ _ _ _ _ (GivenProof _)); [reflexivity|vm_compute; reflexivity|].
    match goal with |- played _ _ _ _ (PlayEnd ?b) _ => assert (E : b = true) by (vm_compute; reflexivity); rewrite E end. constructor.
Qed.
Lemma c118_numbers_case : orderly 162 16 1 3 2 [] duel /\ (N.of_nat 1 <= 2 ^ 40)%N /\ (N.of_nat 3 <= 2 ^ 20)%N /\ (N.of_nat 2 <= 2 ^ 10)%N.
Proof. split; [apply duel_orderly; lia|split; [|split]; vm_compute; discriminate]. Qed.
Lemma c118_together_case : alike 2 ([] ++ [p2]) srcd srcd' /\ slot_of treed 1 <> slot_of treed' 1.
Proof. split; [exact treed_alike|exact treed_differ]. Qed.
