(** Concrete cases meeting the hypotheses of the theorems of TheoremsAdv.v. *)
From Verif Require Import Base BaseFacts OrdMap Strict Digest Merkle MpcAtoms MpcTree MpcBlock Engine EngineIo.
From Verif Require Import SpecHash SpecTree SpecMerkle SpecFull SpecValid SpecCommit SpecDerived SpecBlock SpecEngine SpecDerive.
From Verif Require Import StrictProofs TheoremsMpc TheoremsBlock TheoremsMisc TheoremsMore TheoremsExt TheoremsAdv CasesMpc CasesMisc CasesMore.
Local Open Scope nat_scope.

Definition pf2 : merkle_proof := Eval vm_compute in
  match @to_merkle_proof toy Debug b0 p2 with Ret (Ok p) => p | _ => MProof Sha256t 0 0 [] end.
Lemma pf1_valid : valid_proof pf1. Proof. split; [comp|split; [comp|cbn; lia]]. Qed.
Lemma pf2_valid : valid_proof pf2. Proof. split; [comp|split; [comp|cbn; lia]]. Qed.

Lemma c65_parameters_case : valid_proof pf1 /\ valid_proof pf2 /\ p1 <> p2 /\ mp_pos pf1 <> mp_pos pf2 /\
  @convolve toy Debug pf1 p1 m1 = Ret (Ok c0) /\ @convolve toy Release pf2 p2 m2 = Ret (Ok c0).
Proof.
  split; [exact pf1_valid|split; [exact pf2_valid|]]. split; [discriminate|]. split; [discriminate|]. split; comp.
Qed.
Lemma c65_capacity_case :
  Forall (fun x => valid_proof (fst x) /\
                   exists md, @convolve toy md (fst x) (fst (snd x)) (snd (snd x)) = Ret (Ok c0)) [(pf1, (p1, m1)); (pf2, (p2, m2))] /\
  NoDup (map (fun x => fst (snd x)) [(pf1, (p1, m1)); (pf2, (p2, m2))]) /\ length (mp_path pf1) = 2.
Proof.
  split; [|split; [|reflexivity]].
  - constructor; [split; [exact pf1_valid|exists Debug; comp]|]. constructor; [split; [exact pf2_valid|exists Debug; comp]|constructor].
  - constructor; [intros [E|[]]; discriminate E|]. constructor; [intros []|constructor].
Qed.
(** [p1] and [p5] share position 1: with a constant hash both can be proved, with the toy hash only [p1] is in the block. *)
Lemma c65_exclusion_case : block_tree b1 pt1 /\ valid_proof pf1 /\ p1 <> p5 /\ @block_commit_id flat Debug b1 = Ret cflat /\
  @convolve flat Debug pf1 p5 m2 = Ret (Ok cflat) /\ In (1%N, (p1, m1)) (pleaves_at (mb_depth b1) 0 0 pt1) /\
  1%N = s_pos p5 (mb_cofactor b1) (mb_depth b1) /\
  @block_commit_id toy Debug b1 = Ret c0 /\ @convolve toy Debug pf1 p1 m1 = Ret (Ok c0).
Proof.
  split; [exact b1_tree|split; [exact pf1_valid|split; [discriminate|]]]. split; [comp|split; [comp|split; [left; reflexivity|]]].
  split; [comp|split; comp].
Qed.

Lemma c66_poison_refuted_case : wf_block b0 /\ mb_entropy b0 = Some 7%N /\ 2 <= mb_depth b0 /\
  ~ In (p5, m1) (known_leaves (mb_cross_section b0)).
Proof.
  split; [exact b0_wf|split; [reflexivity|split; [cbn; lia|]]].
  intros I. cbn in I. repeat (destruct I as [I|I]; [discriminate I|]). exact I.
Qed.
Lemma c66_debug_case : valid_source src0 /\ try_commit src0 None = Ret (Ok t0) /\ @tree_commit_id toy Debug t0 = Ret c0 /\
  valid_block b1 /\ valid_block b3 /\ @block_commit_id toy Debug b1 = Ret c0 /\
  @merge_reveal toy Debug b1 b3 = Ret (b13, Ok 4%N) /\ known_leaves (mb_cross_section b13) = [(p1, m1); (p3, m1)].
Proof.
  split; [exact src0_valid|split; [comp|split; [comp|split; [exact b1_valid|split; [exact b3_valid|]]]]].
  split; [comp|split; comp].
Qed.
Lemma c66_exact_case : valid_source src0 /\ try_commit src0 None = Ret (Ok t0) /\ @tree_commit_id toy Release t0 = Ret c0 /\
  valid_block b1 /\ valid_block b3 /\ @block_commit_id toy Release b1 = Ret c0 /\
  @merge_reveal toy Release b1 b3 = Ret (b13, Ok 4%N) /\
  heights_sum (mb_depth b13) (mb_cross_section b13) = (2 ^ N.of_nat (mb_depth b13))%N /\
  Forall (fun x => match x with ConcealedNode d _ => d <= mb_depth b13 | _ => True end) (mb_cross_section b13).
Proof.
  split; [exact src0_valid|split; [comp|split; [comp|split; [exact b1_valid|split; [exact b3_valid|]]]]].
  split; [comp|split; [comp|split; [comp|]]]. cbn. repeat constructor.
Qed.

(** A type encoded as one byte, refusing values above 100 *)
Definition small_ty : strict_type := SType "Test" (Some "Small"%string).
Definition small_write (n : N) : io := if (n <=? 100)%N then ([byte_of_N n], true) else ([], false).
Lemma c67_succeeding_case : @commit toy N Debug (@ce_io N [] small_ty small_ty small_write) 7%N =
  @commit toy N Debug (@derive_strict N [] small_ty (Typed small_ty (c_le 1))) 7%N /\
  exists e, @commit toy N Debug (@ce_io N [] small_ty small_ty small_write) 7%N = Ret e.
Proof. split; [comp|eexists; vm_compute; reflexivity]. Qed.
Lemma c67_debug_case : snd (small_write 101) = false /\
  @commit toy N Debug (@ce_io N [] small_ty small_ty small_write) 101%N = Panic PDebugAssert.
Proof. split; comp. Qed.
Lemma c67_release_case : has_fqn small_ty (Fqn "Test" "Small") /\
  @commit_id toy N Release (@ce_io N [] small_ty small_ty small_write) 101%N =
  @commit_id toy N Release (@ce_io N [] small_ty small_ty small_write) 102%N /\
  @commit_id toy N Release (@ce_io N [] small_ty small_ty small_write) 7%N <>
  @commit_id toy N Release (@ce_io N [] small_ty small_ty small_write) 102%N.
Proof. split; [reflexivity|split; [comp|]]. vm_compute. discriminate. Qed.
Lemma c67_silent_refuted_case : has_fqn small_ty (Fqn "Test" "Small").
Proof. reflexivity. Qed.

Definition u8_ty : typed N := Typed (SType "Test" (Some "U8"%string)) (c_le 1).
Definition u16_ty : typed N := Typed (SType "Test" (Some "U16"%string)) (c_le 2).
(** Two bytes as two fields and as one *)
Lemma c68_stream_case : exists e e',
  @run toy Debug [FSerialized u8_ty 1%N; FSerialized u8_ty 2%N] (@engine_new toy (str "t")) = Ret e /\
  @run toy Debug [FSerialized u16_ty 513%N] (@engine_new toy (str "t")) = Ret e' /\
  Forall2 (@feeds toy) [FSerialized u8_ty 1%N; FSerialized u8_ty 2%N] [[x01]; [x02]] /\
  Forall2 (@feeds toy) [FSerialized u16_ty 513%N] [[x01; x02]] /\
  @digest_finish toy (engine_finish e) = @digest_finish toy (engine_finish e') /\ into_layout e <> into_layout e'.
Proof.
  eexists. eexists. split; [reflexivity|split; [reflexivity|]]. split; [|split; [|split; [comp|discriminate]]].
  - constructor; [comp|constructor; [comp|constructor]].
  - constructor; [comp|constructor].
Qed.
Lemma c68_layout_refuted_case : has_fqn small_ty (Fqn "Test" "Small").
Proof. reflexivity. Qed.

(** block.rs:130 [#[commit_encode(crate = crate, strategy = strict, id = Commitment)]], and arguments
    that are refused *)
Definition args_concealed : list (string * string) := [("crate", "crate"); ("strategy", "strict"); ("id", "Commitment")]%string.
Lemma c69_accepts_case : attr_says args_concealed "crate" StrategyStrict "Commitment" /\
  container_of [("strategy", "strict")]%string = Err (AttrMissing "id") /\
  container_of [("strategy", "hash"); ("id", "X")]%string = Err (AttrStrategy "hash") /\
  container_of [("strategy", "strict"); ("id", "X"); ("tag", "Y")]%string = Err (AttrUnknown "tag") /\
  container_of [("id", "X"); ("strategy", "conceal")]%string = Ok (ContainerAttr "commit_verify" StrategyConceal "X").
Proof.
  split; [|split; [comp|split; [comp|split; comp]]]. apply c69_accepts. comp.
Qed.
Lemma c69_generates_case : attr_says args_concealed "crate" StrategyStrict "Commitment" /\
  exists D : derive_input merkle_concealed, has_fqn (ty (di_self _ D)) (Fqn "CommitVerify" "MerkleConcealed") /\
  not_reserved_type (ty (di_self _ D)) /\
  @derive_encode toy _ D (fun _ => (named "Commitment", commitment_tag)) args_concealed = Ok ce_concealed.
Proof.
  split; [exact (proj1 c69_accepts_case)|].
  exists (DeriveInput (Typed (named "MerkleConcealed") c_merkle_concealed) unit (Typed (named "U") c_unit) (fun _ => tt) unit
           (fun _ _ => Ret tt) (named "U") unit (fun _ _ => Ret tt) c_unit (named "U") (fun _ => [])).
  split; [reflexivity|split; [split; discriminate|reflexivity]].
Qed.

Lemma c70_gate_case : valid_block b1 /\ wf_block b1 /\ @block_commit_id toy Release b1 = Ret c0 /\
  heights_sum (mb_depth b1) (mb_cross_section b1) = 4%N /\
  valid_block b1g /\ @block_commit_id toy Release b1g = Ret c0 /\ heights_sum (mb_depth b1g) (mb_cross_section b1g) = 5%N.
Proof.
  split; [exact b1_valid|split; [exact b1_wf|split; [comp|split; [comp|]]]].
  split; [exact (proj1 (proj2 (proj2 c51_prefix_case)))|split; comp].
Qed.
Lemma c70_debug_gate_case : valid_block b1 /\ wf_block b1 /\ @block_commit_id toy Debug b1 = Ret c0 /\
  exists x, @block_commit_id toy Debug b1g = Panic x.
Proof. split; [exact b1_valid|split; [exact b1_wf|split; [comp|eexists; vm_compute; reflexivity]]]. Qed.
Lemma c70_safe_case : wf_block b1 /\ wf_block b3 /\ b1 <> b3.
Proof. split; [exact b1_wf|split; [exact b3_wf|discriminate]]. Qed.
Lemma c70_vouched_case : wf_block b1 /\ valid_source src0 /\ try_commit src0 None = Ret (Ok t0) /\
  @block_commit_id toy Release b1 = Ret c0 /\ @tree_commit_id toy Release t0 = Ret c0 /\
  known_leaves (mb_cross_section b1) = [(p1, m1)].
Proof. split; [exact b1_wf|split; [exact src0_valid|split; [comp|split; [comp|split; comp]]]]. Qed.

(** With a constant hash different inner values give equal outer ids (and collide). *)
Lemma c71_hash_field_case :
  let f x := FHash idt (@HASH flat (@s_pre flat (str "inner") x)) in
  exists e, @run flat Debug [FSerialized u8t 5%N; f [x01]] (@engine_new flat (str "tag")) = Ret e /\
    @run flat Debug [FSerialized u8t 5%N; f [x02]] (@engine_new flat (str "tag")) = Ret e /\
    Forall2 same_kind ([FSerialized u8t 5%N] ++ f [x01] :: []) ([FSerialized u8t 5%N] ++ f [x02] :: []) /\
    Forall2 (@feeds flat) ([FSerialized u8t 5%N] ++ f [x01] :: []) [[x05]; b32 cflat] /\
    Forall2 (@feeds flat) ([FSerialized u8t 5%N] ++ f [x02] :: []) [[x05]; b32 cflat] /\
    @fields_hashed flat ([FSerialized u8t 5%N] ++ f [x01] :: []) [] /\
    @fields_hashed flat ([FSerialized u8t 5%N] ++ f [x02] :: []) [] /\
    @digest_finish flat (engine_finish e) = cflat.
Proof.
  cbv zeta. eexists. split; [reflexivity|split; [reflexivity|]].
  assert (K : same_kind (FSerialized u8t 5%N) (FSerialized u8t 5%N)).
  { apply (sk_serialized N u8t _ 5%N 5%N (c_le_lawful 1)); reflexivity. }
  split; [|split; [|split; [|split; [|split; [|reflexivity]]]]].
  - constructor; [exact K|constructor; [|constructor]]. apply sk_hash.
  - constructor; [reflexivity|constructor; [reflexivity|constructor]].
  - constructor; [reflexivity|constructor; [reflexivity|constructor]].
  - apply fh_other; [discriminate|]. apply fh_other; [discriminate|constructor].
  - apply fh_other; [discriminate|]. apply fh_other; [discriminate|constructor].
Qed.
Lemma c71_merkle_field_case :
  let f x := FMerkle idt (map (fun x => @HASH flat (@s_pre flat (str "inner") x)) x) in
  exists e L L', @run flat Debug [f [[x01]; [x02]]] (@engine_new flat (str "tag")) = Ret e /\
    @run flat Debug [f [[x03]; [x04]]] (@engine_new flat (str "tag")) = Ret e /\
    Forall2 same_kind ([] ++ f [[x01]; [x02]] :: []) ([] ++ f [[x03]; [x04]] :: []) /\
    Forall2 (@feeds flat) ([] ++ f [[x01]; [x02]] :: []) [b32 cflat] /\
    Forall2 (@feeds flat) ([] ++ f [[x03]; [x04]] :: []) [b32 cflat] /\
    @fields_hashed flat ([] ++ f [[x01]; [x02]] :: []) L /\
    @fields_hashed flat ([] ++ f [[x03]; [x04]] :: []) L' /\
    @digest_finish flat (engine_finish e) = cflat.
Proof.
  cbv zeta. eexists. eexists. eexists. split; [reflexivity|split; [reflexivity|]].
  split; [|split; [|split; [|split; [|split; [|reflexivity]]]]].
  - constructor; [|constructor]. apply sk_merkle. cbn. split; discriminate.
  - constructor; [|constructor]. exists cflat. split; [|reflexivity].
    apply (@root_tree flat [cflat; cflat] (TTwo cflat cflat)); [discriminate|constructor].
  - constructor; [|constructor]. exists cflat. split; [|reflexivity].
    apply (@root_tree flat [cflat; cflat] (TTwo cflat cflat)); [discriminate|constructor].
  - cbn [app map]. apply fh_merkle; [|constructor]. apply (@hashed_tree flat [cflat; cflat] (TTwo cflat cflat)); [discriminate|constructor].
  - cbn [app map]. apply fh_merkle; [|constructor]. apply (@hashed_tree flat [cflat; cflat] (TTwo cflat cflat)); [discriminate|constructor].
Qed.
Lemma c39_serde_case : reserved_from 2 x07 [x07; x07] = Ret [x07; x07] /\
  reserved_deserialize 2 x07 (reserved_serialize [x07; x07]) = Ok [x07; x07] /\ reserved_deserialize 2 x07 SerdeOther = Err tt.
Proof. split; [comp|split; comp]. Qed.
