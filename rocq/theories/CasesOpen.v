(** Cases for TheoremsOpen.v: coins of which one is opened. *)
From Verif Require Import Base BaseFacts Strict Engine SpecHash SpecCodec SpecEngine SpecGame SpecHideGame SpecIdGame SpecSalt SpecOpen.
From Verif Require Import TheoremsMpc TheoremsGame TheoremsHideGame TheoremsSalt TheoremsOpen CasesMpc CasesMisc CasesHideGame CasesSalt.
Local Open Scope nat_scope.

(** Asks for the secret of the second coin, hashes it with the first id, and answers by comparing the result with the third id. *)
Definition curious_coin (ids : list bytes32) : inquiry :=
  match ids with
  | a :: _ :: c :: _ => InquireSecret 1 (fun e => InquireHash (b32 a ++ le 32 e) (fun h => Conclude (b32_eqb h c)))
  | _ => Conclude false
  end.
Lemma curious_discreet ids : discreet 162 1 (curious_coin ids).
Proof.
  destruct ids as [|a [|b [|c ids]]]; try exact Logic.I. cbn [curious_coin discreet]. intros e.
  rewrite app_length, b32_length, le_length. split; [lia|intros; exact Logic.I].
Qed.
Lemma curious_same i : In i [1] -> nth_error (map coin [5; 6; 7]%N) i = nth_error (map coin [8; 6; 9]%N) i.
Proof. intros [<-|[]]. reflexivity. Qed.
Lemma c114_hiding_case : exists U k1 k2, universe 162 U /\ (forall cs, discreet 162 1 (curious_coin cs)) /\
  Forall (salted 162 Debug (2 ^ 256)) (map coin [5; 6; 7]%N) /\ Forall (salted 162 Debug (2 ^ 256)) (map coin [8; 6; 9]%N) /\
  (forall i, In i [1] -> nth_error (map coin [5; 6; 7]%N) i = nth_error (map coin [8; 6; 9]%N) i) /\
  (forall i, i < 3 -> In i [1] \/ In i [0; 2]) /\
  counts (guesses_open U Debug (2 ^ 256) [1] (map coin [5; 6; 7]%N) curious_coin) k1 /\
  counts (guesses_open U Debug (2 ^ 256) [1] (map coin [8; 6; 9]%N) curious_coin) k2.
Proof.
  destruct (all_strings 162) as [U UU].
  destruct (c114_meaning 162 U Debug (2 ^ 256) [1] curious_coin (map coin [5; 6; 7]%N) UU (coins_salted _)) as ([k1 K1] & _).
  destruct (c114_meaning 162 U Debug (2 ^ 256) [1] curious_coin (map coin [8; 6; 9]%N) UU (coins_salted _)) as ([k2 K2] & _).
  exists U, k1, k2. split; [exact UU|split; [exact curious_discreet|split; [apply coins_salted|split; [apply coins_salted|]]]].
  split; [exact curious_same|split; [|split; assumption]]. intros i L. cbn. lia.
Qed.
Lemma c114_meaning_case : Forall (salted 162 Debug (2 ^ 256)) (map coin [5; 6; 7]%N) /\
  concludes toy [1] [3; 4; 5]%N (curious_coin [p1; p2; p3]) false.
Proof.
  split; [apply coins_salted|]. cbn [curious_coin]. apply (co_secret toy [1] [3; 4; 5]%N 1 4%N); [left; reflexivity|reflexivity|].
  apply co_hash. match goal with |- concludes _ _ _ (Conclude ?b) _ => assert (E : b = false) by (vm_compute; reflexivity); rewrite E end. constructor.
Qed.
Lemma c114_numbers_case : (N.of_nat 1 <= 2 ^ 100)%N /\ length (map coin [5; 6; 7]%N) = length (map coin [8; 6; 9]%N) /\
  (N.of_nat (length (map coin [5; 6; 7]%N)) <= 2 ^ 20)%N /\
  (forall i, In i [1] -> nth_error (map coin [5; 6; 7]%N) i = nth_error (map coin [8; 6; 9]%N) i).
Proof.
  split; [vm_compute; discriminate|split; [reflexivity|split; [vm_compute; discriminate|exact curious_same]]].
Qed.
