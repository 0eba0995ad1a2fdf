(** Cases for the theorems about length prefixes. *)
From Verif Require Import Base BaseFacts Digest SpecEngine SpecMisc TheoremsMpc CasesMpc.
Local Open Scope nat_scope.

Lemma c38_every_case : prefix_size 255 1 /\ input_with_len 255 [] (repeat x07 256) = Ret (x00 :: repeat x07 256) /\
  prefix_size (2 ^ 16) 3 /\ input_with_len (2 ^ 16) [] [x07] = Ret [x01; x00; x00; x07] /\
  (N.of_nat (length (repeat x00 (N.to_nat (2 ^ 32 + 5)))) mod 2 ^ 32 < 2 ^ 24)%N /\
  (2 ^ 24 <= N.of_nat (length (repeat x00 (N.to_nat (2 ^ 25)))) mod 2 ^ 32)%N.
Proof.
  split; [constructor; reflexivity|]. split; [comp|]. split; [constructor; split; [discriminate|reflexivity]|]. split; [comp|].
  rewrite !repeat_length, !N2Nat.id. split; [reflexivity|discriminate].
Qed.
Lemma c38_too_long_24_refuted_case : prefix_size (2 ^ 20) 3.
Proof. constructor; split; [discriminate|reflexivity]. Qed.
