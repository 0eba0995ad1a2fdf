(** Cases for the theorems about extracted collisions. *)
From Verif Require Import Base BaseFacts Merkle MpcAtoms MpcTree MpcBlock SpecHash SpecMerkle SpecFull SpecValid SpecFind TheoremsMpc CasesMpc.
Local Open Scope nat_scope.

Lemma c90_find_case : @find_collision flat [[x00]; [x00]; [x01]] = Some ([x00], [x01]) /\
  @find_collision toy [[x00]; [x00]; [x01]] = None.
Proof. split; comp. Qed.
Lemma c90_strings_case : In (@s_leaf toy p1 m1) (@proof_pre toy pf1 p1 m1) /\ length (@s_leaf toy p1 m1) = 129 /\
  map (@length byte) (@proof_pre toy pf1 p1 m1) = [34; 37; 99; 162; 162; 129].
Proof. split; [right; right; right; right; right; left; comp|split; comp]. Qed.
Lemma c90_two_messages_case : valid_proof pf1 /\ m1 <> m2 /\
  @convolve flat Debug pf1 p1 m1 = Ret (Ok cflat) /\ @convolve flat Release pf1 p1 m2 = Ret (Ok cflat) /\
  length (@proof_pre flat pf1 p1 m1 ++ @proof_pre flat pf1 p1 m2) = 12.
Proof.
  destruct c01_one_message_case as [V [N [A [B _]]]]. split; [exact V|split; [exact N|split; [exact A|split; [exact B|comp]]]].
Qed.
Lemma c90_two_trees_case :
  valid_source src0 /\ valid_source src0' /\ try_commit src0 None = Ret (Ok t0) /\ try_commit src0' None = Ret (Ok t0') /\
  @tree_commit_id flat Debug t0 = Ret cflat /\ @tree_commit_id flat Debug t0' = Ret cflat /\ mt_messages t0 <> mt_messages t0'.
Proof.
  destruct c27_tree_binding_case as [A [B [C [D [E [F [G _]]]]]]]. repeat (split; [assumption|]). assumption.
Qed.
Lemma c90_two_lists_case : exists L L', @merklize flat [p1; p2] = Ret cflat /\ @merklize flat [p3; p1; p2] = Ret cflat /\
  @root_hashed flat [p1; p2] L /\ @root_hashed flat [p3; p1; p2] L' /\ [p1; p2] <> [p3; p1; p2].
Proof.
  destruct c24_binding_case as [L [L' [A [B [C [D _]]]]]]. exists L, L'. repeat (split; [assumption|]). discriminate.
Qed.
Lemma c90_tight_case : @convolve flat Debug pf1 p1 m1 = Ret (Ok cflat) /\
  @HASH flat (@s_leaf flat p1 m1) = @HASH flat (@s_leaf flat p1 m2) /\ m1 <> m2.
Proof. split; [comp|split; [comp|discriminate]]. Qed.
