(** Concrete cases meeting the hypotheses of the theorems of TheoremsResting.v. *)
From Verif Require Import Base BaseFacts OrdMap Strict Digest Merkle MpcAtoms MpcTree MpcBlock Engine Schemes.
From Verif Require Import SpecHash SpecTree SpecMerkle SpecFull SpecValid SpecCommit SpecDerived SpecBlock SpecSettled SpecResting.
From Verif Require Import TheoremsMpc TheoremsBlock TheoremsMore CasesMpc CasesMore CasesExt TheoremsSettled TheoremsResting.
Local Open Scope nat_scope.

(** One of two leaves is kept; the other is aggregated with the node beside it. *)
Definition b4r : merkle_block := MBlock Sha256t 2 0
  [ConcealedNode 2 m1; CommitmentLeaf p2 m2; CommitmentLeaf p1 m1; ConcealedNode 2 m2] (Some 5%N).
Definition f4r : list (nat * ptree) :=
  [(2, PConc m1); (2, PLeaf p2 m2); (1, PBr (PConc (@HASH toy (@s_leaf toy p1 m1))) (PConc m2))].
Definition b4r' : merkle_block := MBlock Sha256t 2 0 (map (@top toy (2 ^ 2)) f4r) None.
(** After it: a root, a node below the leaves, two nodes which are no siblings around a leaf, and one far too deep *)
Definition b4s : merkle_block := MBlock Sha256t 2 0
  (mb_cross_section b4r ++ [ConcealedNode 0 m1; ConcealedNode 3 m1; ConcealedNode 2 m1; CommitmentLeaf p2 m1; ConcealedNode 2 m2; ConcealedNode 9 m1]) None.
Definition f4s : list (nat * ptree) :=
  f4r ++ [(0, PConc m1); (3, PConc m1); (2, PConc m1); (2, PLeaf p2 m1); (2, PConc m2); (9, PConc m1)].
Definition b4s' : merkle_block := MBlock Sha256t 2 0 (map (@top toy (2 ^ 2)) f4s) None.
Lemma b4r_valid : valid_block b4r.
Proof. split; [cbn; lia|split; [comp|split; [cbn; lia|split; [|comp]]]]. cbn. repeat constructor; cbn; lia. Qed.
Lemma b4s_valid : valid_block b4s.
Proof. split; [cbn; lia|split; [comp|split; [cbn; lia|split; [|exact I]]]]. cbn. repeat constructor; cbn; lia. Qed.
Lemma b4r_known : forall p, In p [p2] -> In p (map fst (known_leaves (mb_cross_section b4r))).
Proof. intros p [<-|[]]. left. reflexivity. Qed.
Lemma b4s_known : forall p, In p [p2] -> In p (map fst (known_leaves (mb_cross_section b4s))).
Proof. intros p [<-|[]]. left. reflexivity. Qed.
Lemma f4r_rest : resting 2 0 None f4r.
Proof. cbn. repeat split; try lia; try (intros; discriminate). Qed.
Lemma f4s_rest : resting 2 0 None f4s.
Proof. cbn. repeat split; try lia; try (intros; discriminate). Qed.

Lemma c122_release_case : valid_block b4s /\ (forall p, In p [p2] -> In p (map fst (known_leaves (mb_cross_section b4s)))) /\
  map (@hide toy (mb_depth b4s) [p2]) (mb_cross_section b4s) = frontiers f4s /\ resting (mb_depth b4s) 0 None f4s /\
  @conceal_except toy Release b4s [p2] = Ret (b4s', Ok 2%N) /\ (exists x, @conceal_except toy Debug b4s [p2] = Panic x).
Proof.
  split; [exact b4s_valid|split; [exact b4s_known|split; [comp|split; [exact f4s_rest|split; [comp|eexists; vm_compute; reflexivity]]]]].
Qed.
Lemma c122_debug_case : valid_block b4r /\ (forall p, In p [p2] -> In p (map fst (known_leaves (mb_cross_section b4r)))) /\
  map (@hide toy (mb_depth b4r) [p2]) (mb_cross_section b4r) = frontiers f4r /\ resting (mb_depth b4r) 0 None f4r /\
  breadth (mb_depth b4r) f4r = 4%N /\ @conceal_except toy Debug b4r [p2] = Ret (b4r', Ok 2%N).
Proof.
  split; [exact b4r_valid|split; [exact b4r_known|split; [comp|split; [exact f4r_rest|split; [comp|comp]]]]].
Qed.
Lemma c122_unique_case : valid_block b4s /\
  map (@hide toy (mb_depth b4s) [p2]) (mb_cross_section b4s) = frontiers f4s /\ resting (mb_depth b4s) 0 None f4s /\ length f4s = 9.
Proof. split; [exact b4s_valid|split; [comp|split; [exact f4s_rest|reflexivity]]]. Qed.
Lemma c122_again_case : valid_block b4s /\ (forall p, In p [p2] -> In p (map fst (known_leaves (mb_cross_section b4s)))) /\
  @conceal_except toy Release b4s [p2] = Ret (b4s', Ok 2%N) /\ b4s' <> b4s /\
  valid_block b4r /\ (forall p, In p [p2] -> In p (map fst (known_leaves (mb_cross_section b4r)))) /\
  @conceal_except toy Debug b4r [p2] = Ret (b4r', Ok 2%N).
Proof.
  split; [exact b4s_valid|split; [exact b4s_known|split; [comp|split; [discriminate|split; [exact b4r_valid|split; [exact b4r_known|comp]]]]]].
Qed.
