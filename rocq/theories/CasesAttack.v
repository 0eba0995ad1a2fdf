(** Cases for the attacks of C106. *)
From Verif Require Import Base BaseFacts OrdMap Strict Merkle MpcAtoms MpcTree MpcBlock Sha256.
From Verif Require Import SpecHash SpecTree SpecMerkle SpecFull SpecValid SpecFind SpecBlock SpecCommit SpecGame SpecTarget.
From Verif Require Import TheoremsMpc CasesMpc CasesMisc CasesMore CasesExt TheoremsQuery TheoremsGame CasesGame CasesTarget TheoremsAttack.
Local Open Scope nat_scope.

(** Two leaves suffice for a hash function which maps everything to one value; SHA-256 is not so. *)
Lemma c106_collide_case : exists U, universe 162 U /\ (N.of_nat 2 <= 2 ^ 256)%N /\ valid_proof pf1 /\ length (mp_path pf1) <= 31 /\
  mp_pos pf1 = s_pos p1 (mp_cofactor pf1) (length (mp_path pf1)) /\
  exec flat (p_pair pf1 p1 [m1; m2]) = (pf1, m1, pf1, m2, p1) /\ exec sha256 (p_pair pf1 p1 [m1; m2]) = (pf1, p1, pf1, p1, p1).
Proof.
  destruct (all_strings 162) as [U UU]. exists U. split; [exact UU|split; [vm_compute; discriminate|split; [apply c60_one_proof_case|]]].
  split; [vm_compute; lia|split; [comp|split; comp]].
Qed.
Lemma c106_second_case : exists U, universe 162 U /\ made_before 2 made0 /\ NoDup [m2; m1] /\
  (forall m, In m [m2; m1] -> exists src rng, In (src, rng) made0 /\ In (p1, m) (ms_messages src)) /\
  (N.of_nat (2 + length [m2; m1]) <= 2 ^ 256)%N /\
  (let '(pf, pid, msg) := exec flat (p_other p1 [(m2, t0'); (m1, t0)] [p5]) in pid = p1 /\ msg = m1 /\ @convolve flat Debug pf pid msg = Ret (Ok cflat)) /\
  (let '(pf, pid, msg) := exec flat (p_other p1 [(m2, t0')] [p5]) in pid = p1 /\ msg = p5 /\ @convolve flat Debug pf pid msg = Ret (Ok cflat)).
Proof.
  destruct (all_strings 162) as [U UU]. exists U. split; [exact UU|split; [exact made0_before|split; [|split; [|split; [vm_compute; discriminate|split]]]]].
  - constructor; [intros [X|[]]; revert X; vm_compute; discriminate|constructor; [intros []|constructor]].
  - intros m [<-|[<-|[]]]; [exists src0', None|exists src0, (Some 5%N)]; (split; [cbn; tauto|vm_compute; tauto]).
  - vm_compute. auto.
  - vm_compute. auto.
Qed.
Lemma c106_numbers_case : exists U q, universe 162 U /\ (2 ^ 129 <= N.of_nat q <= 2 ^ 256)%N /\ valid_proof pf1 /\ length (mp_path pf1) <= 31 /\
  mp_pos pf1 = s_pos p1 (mp_cofactor pf1) (length (mp_path pf1)).
Proof.
  destruct (all_strings 162) as [U UU]. exists U, (N.to_nat (2 ^ 129)). rewrite N2Nat.id.
  split; [exact UU|split; [split; vm_compute; discriminate|split; [apply c60_one_proof_case|split; [vm_compute; lia|comp]]]].
Qed.
