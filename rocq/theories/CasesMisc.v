(** Concrete cases meeting the hypotheses of the theorems of TheoremsMisc.v. *)
From Verif Require Import Base BaseFacts OrdMap Strict Digest Merkle MpcAtoms MpcTree MpcBlock.
From Verif Require Import Engine Schemes Seals Api Vesper.
From Verif Require Import SpecHash SpecTree SpecMerkle SpecFull SpecValid SpecCodec SpecLayout SpecEngine SpecMisc.
From Verif Require Import StrictProofs HashFacts TheoremsMpc TheoremsMisc CasesMpc.
Local Open Scope nat_scope.

(** ** Encodings *)
Lemma c33_roundtrip_case :
  valid_proof pf1 /\ dec c_merkle_proof (enc c_merkle_proof pf1 ++ [x2a]) = Some (pf1, [x2a]) /\
  valid_block b1 /\ dec c_merkle_block (enc c_merkle_block b1) = Some (b1, []) /\
  valid_tree t0 /\ dec c_merkle_tree (enc c_merkle_tree t0) = Some (t0, []) /\
  dec c_merkle_proof [x01] = None /\ dec c_leaf [x12] = None.
Proof.
  split; [split; [comp|split; [comp|cbn; lia]]|split; [comp|split; [exact b1_valid|split; [comp|split]]]].
  - split; [cbn; lia|split; [comp|split; [comp|split; [comp|split; [comp|split; [comp|split; [comp|]]]]]]].
    repeat constructor.
  - split; [comp|split; comp].
Qed.

(** ** Engine *)
Definition u8t : typed N := Typed (SType "Lib" (Some "U8"%string)) (c_le 1).
Definition u16t : typed N := Typed (SType "Lib" (Some "U16"%string)) (c_le 2).
Definition idt : strict_type := SType "Lib" (Some "Id"%string).
Definition u8q : type_fqn := Fqn "Lib" "U8".
Definition fields0 : list field :=
  [FSerialized u8t 5%N; FOption u16t (Some 258%N); FHash idt p1; FMerkle idt [p1; p2; p3];
   FConcealed idt c_b32 p2; FList u8t 0 255 [7%N; 8%N]; FMap u8t u16t 0 65535 [(1%N, 2%N)]].
Definition root3 : bytes32 := Eval vm_compute in or_else p1 (@merklize toy [p1; p2; p3]).
Definition bytes0 : list (list byte) :=
  [[x05]; [x01; x02; x01]; b32 p1; b32 root3; b32 p2; [x02; x07; x08]; [x01; x00; x01; x02; x00]].
Definition steps0 : list commit_step :=
  [StSerialized u8q; StSerialized (Fqn "Lib" "U16"); StHashed (Fqn "Lib" "Id"); StMerklized (Fqn "Lib" "Id");
   StConcealed (Fqn "Lib" "Id"); StCollection ColList (Sizing 0 255) u8q;
   StCollection (ColMap u8q) (Sizing 0 65535) (Fqn "Lib" "U16")].
Lemma feeds0 : Forall2 (@feeds toy) fields0 bytes0.
Proof.
  repeat constructor.
  - exists root3. split; [|reflexivity].
    change root3 with (@mthash toy 3 0 (TSplit (TTwo p1 p2) (TOne p3))) || 
    (replace root3 with (@mthash toy 3 0 (TSplit (TTwo p1 p2) (TOne p3))) by comp).
    apply (@root_tree toy [p1; p2; p3]); [discriminate|apply splits3].
  - exists 1. split; [constructor; lia|comp].
  - exists 2. split; [constructor; lia|comp].
Qed.
Lemma c34_digest_case : exists e, @run toy Debug fields0 (@engine_new toy (str "tag")) = Ret e /\
  Forall2 (@feeds toy) fields0 bytes0 /\ into_layout e = steps0 /\
  @digest_finish toy (engine_finish e) = @HASH toy (@s_pre toy (str "tag") (concat bytes0)).
Proof. eexists. split; [vm_compute; reflexivity|split; [exact feeds0|split; comp]]. Qed.
Lemma c34_split_independent_case :
  let fs := [FSerialized u8t 5%N; FSerialized u8t 6%N] in let gs := [FSerialized u16t 1541%N] in
  exists e e', @run toy Debug fs (@engine_new toy (str "tag")) = Ret e /\
    @run toy Release gs (@engine_new toy (str "tag")) = Ret e' /\
    Forall2 (@feeds toy) fs [[x05]; [x06]] /\ Forall2 (@feeds toy) gs [[x05; x06]] /\
    into_layout e <> into_layout e'.
Proof.
  cbv zeta. eexists. eexists. split; [vm_compute; reflexivity|split; [vm_compute; reflexivity|]].
  split; [repeat constructor|split; [repeat constructor|discriminate]].
Qed.
Lemma c34_commit_id_case :
  let I := @derive_strict N (str "tag") idt u8t in
  exists e, ce_encode I Debug 5%N (@engine_new toy (ce_tag I)) = @run toy Debug [FSerialized u8t 5%N] (@engine_new toy (ce_tag I)) /\
    @run toy Debug [FSerialized u8t 5%N] (@engine_new toy (ce_tag I)) = Ret e /\
    Forall2 (@feeds toy) [FSerialized u8t 5%N] [[x05]].
Proof. cbv zeta. eexists. split; [comp|split; [vm_compute; reflexivity|repeat constructor]]. Qed.
Lemma c35_binding_case :
  let fs := [FSerialized u8t 5%N; FMerkle idt [p1; p2]] in let gs := [FSerialized u8t 6%N; FMerkle idt [p1; p2; p3]] in
  exists e e' bs cs Lf Lg, @run flat Debug fs (@engine_new flat (str "tag")) = Ret e /\
    @run flat Debug gs (@engine_new flat (str "tag")) = Ret e' /\ Forall2 same_kind fs gs /\
    Forall2 (@feeds flat) fs bs /\ Forall2 (@feeds flat) gs cs /\ @fields_hashed flat fs Lf /\ @fields_hashed flat gs Lg /\
    @digest_finish flat (engine_finish e) = @digest_finish flat (engine_finish e').
Proof.
  cbv zeta. exists (or_else (@engine_new flat []) (@run flat Debug [FSerialized u8t 5%N; FMerkle idt [p1; p2]] (@engine_new flat (str "tag")))).
  exists (or_else (@engine_new flat []) (@run flat Debug [FSerialized u8t 6%N; FMerkle idt [p1; p2; p3]] (@engine_new flat (str "tag")))).
  exists [[x05]; b32 cflat], [[x06]; b32 cflat]. eexists. eexists.
  split; [comp|split; [comp|split; [|split; [|split; [|split; [|split; [|reflexivity]]]]]]].
  - constructor; [|constructor; [|constructor]].
    + apply (sk_serialized N u8t _ 5%N 6%N (c_le_lawful 1)); reflexivity.
    + apply sk_merkle. cbn. split; discriminate.
  - constructor; [reflexivity|constructor; [|constructor]]. exists cflat. split; [|reflexivity].
    apply (@root_tree flat [p1; p2] (TTwo p1 p2)); [discriminate|constructor].
  - constructor; [reflexivity|constructor; [|constructor]]. exists cflat. split; [|reflexivity].
    apply (@root_tree flat [p1; p2; p3] (TSplit (TTwo p1 p2) (TOne p3))); [discriminate|apply splits3].
  - apply fh_other; [discriminate|]. apply fh_merkle; [|constructor].
    apply (@hashed_tree flat [p1; p2] (TTwo p1 p2)); [discriminate|constructor].
  - apply fh_other; [discriminate|]. apply fh_merkle; [|constructor].
    apply (@hashed_tree flat [p1; p2; p3]); [discriminate|apply splits3].
Qed.
Lemma c36_defined_case :
  (exists e, @run1 toy Debug (FSerialized u8t 5%N) (@engine_new toy (str "tag")) = Ret e) /\
  @run1 toy Debug (FSerialized u8t 5%N) (set_finished (@engine_new toy (str "tag"))) = Panic PDebugAssert /\
  (exists e, @run1 toy Release (FSerialized u8t 5%N) (set_finished (@engine_new toy (str "tag"))) = Ret e) /\
  @run1 toy Release (FSerialized (Typed (SType "Lib" None) (c_le 1)) 5%N) (@engine_new toy (str "tag")) = Panic PExpect /\
  @run1 toy Debug (FSerialized (Typed (SType "CommitVerify" (Some "MerkleHash"%string)) c_b32) p1) (@engine_new toy (str "tag"))
    = Panic PDebugAssert.
Proof.
  split; [eexists; vm_compute; reflexivity|split; [comp|split; [eexists; vm_compute; reflexivity|split; comp]]].
Qed.
Lemma c36_limit_case :
  let e := Engine false [] (repeat (StHashed (Fqn "Lib" "Id")) 255) in
  length (en_layout e) = 255 /\ @run1 toy Debug (FHash idt p1) e = Panic PExpect.
Proof. split; comp. Qed.
Lemma c36_sequence_case : length fields0 <= 255 /\ Forall (fun f => exists s, step_for f s) fields0 /\
  Forall (allowed_field Debug) fields0 /\ exists e, @run toy Debug fields0 (@engine_new toy (str "tag")) = Ret e.
Proof.
  assert (R : exists e, @run toy Debug fields0 (@engine_new toy (str "tag")) = Ret e) by (eexists; vm_compute; reflexivity).
  pose proof (proj1 (c36_sequence toy Debug (str "tag") fields0) R) as [A [B C]]. auto.
Qed.
Lemma c37_strict_case : has_fqn (ty u8t) u8q /\ not_reserved_type (ty u8t) /\
  @commit_id toy N Debug (@derive_strict N (str "tag") idt u8t) 5%N = Ret (@HASH toy (@s_pre toy (str "tag") [x05])).
Proof. split; [reflexivity|split; [split; discriminate|comp]]. Qed.
Lemma c37_transparent_case : has_fqn (ty u8t) u8q /\ not_reserved_type (ty u8t) /\
  @commit_id toy (N * unit) Release (@derive_transparent (N * unit) N (str "tag") idt u8t fst) (5%N, tt) =
    Ret (@HASH toy (@s_pre toy (str "tag") [x05])).
Proof. split; [reflexivity|split; [split; discriminate|comp]]. Qed.
Lemma c37_conceal_case :
  has_fqn (named "MerkleConcealed") (Fqn "CommitVerify" "MerkleConcealed") /\
  exists c, @block_conceal toy Debug b0 = Ret c /\ @block_conceal toy Debug b1 = Ret c.
Proof. split; [reflexivity|]. eexists. split; vm_compute; reflexivity. Qed.
Lemma c37_merklize_case : has_fqn idt (Fqn "Lib" "Id") /\
  @commit_id toy unit Debug (@derive_merklize toy unit (str "tag") idt idt (fun _ => [p1; p2; p3])) tt =
    Ret (@HASH toy (@s_pre toy (str "tag") (b32 root3))).
Proof. split; [reflexivity|comp]. Qed.
Lemma c37_idempotent_case : has_fqn (ty u8t) u8q /\ (forall x : N, N.land (N.land x 15) 15 = N.land x 15)%N.
Proof. split; [reflexivity|]. intros x. rewrite <- N.land_assoc. reflexivity. Qed.
Lemma c37_crate_types_case : @commit_id toy merkle_block Debug (@ce_block toy) b1 = Ret c0 /\ @block_commit_id toy Debug b1 = Ret c0.
Proof. split; comp. Qed.

(** ** Length prefixes, reserved bytes *)
Lemma c38_stream_case : prefix_size 255 1 /\
  inputs_with_len 255 [xaa] [[x01; x02]; []; [x03]] = Ret [xaa; x02; x01; x02; x00; x01; x03].
Proof. split; [constructor; lia|comp]. Qed.
Lemma c38_unambiguous_case :
  inputs_with_len 255 [] [[x01]; [x02]] <> inputs_with_len 255 [] [[x01; x02]] /\
  Forall (fun d : list byte => (N.of_nat (length d) <= 255)%N) [[x01]; [x02]].
Proof. split; [vm_compute; discriminate|repeat constructor; cbn; lia]. Qed.
Lemma c38_max_limit_case : input_with_len (2 ^ 32) [] [] = Panic PUnreachable /\ input_with_len (2 ^ 32 - 1) [] [] = Ret (repeat x00 4).
Proof. split; comp. Qed.
Lemma c38_too_long_24_case : let d := repeat x00 (N.to_nat (2 ^ 24)) in (2 ^ 24 <= N.of_nat (length d) < 2 ^ 32)%N.
Proof. cbv zeta. rewrite repeat_length, N2Nat.id. lia. Qed.
Lemma c38_too_long_refuted_case :
  inputs_with_len 255 [] [repeat x00 256] = inputs_with_len 255 [] (repeat [] 257).
Proof. comp. Qed.
Lemma c39_decode_case : dec (c_reserved 3 x00) [x00; x00; x00; x07] = Some ([x00; x00; x00], [x07]) /\
  dec (c_reserved 3 x00) [x00; x01; x00; x07] = None /\ dec (c_reserved 3 x00) [x00; x00] = None.
Proof. split; [comp|split; comp]. Qed.
Lemma c39_from_array_case : reserved_from 2 x07 [x07; x07] = Ret [x07; x07] /\ reserved_from 2 x07 [x07; x08] = Panic PAssert.
Proof. split; comp. Qed.
Lemma c39_one_commitment_case : reserved_from 2 x07 [x07; x07] = Ret [x07; x07] /\
  exists h, @commit_id toy (list byte) Debug (@ce_reserved 2 x07) [x07; x07] = Ret h.
Proof. split; [comp|]. eexists. vm_compute. reflexivity. Qed.

(** ** Schemes *)
Definition hash_scheme : commit_verify (list byte) bytes32 := CommitVerify _ _ (fun m => @HASH toy m) b32_eqb.
Lemma b32_eqb_spec x y : b32_eqb x y = true <-> x = y.
Proof. apply b32_eqb_eq. Qed.
Lemma c40_commit_verify_case : (forall x y, cv_eq hash_scheme x y = true <-> x = y) /\
  cv_verify hash_scheme (@HASH toy [x01]) [x01] = Ok tt /\ cv_verify hash_scheme (@HASH toy [x01]) [x02] = Err InvalidCommitment.
Proof. split; [exact b32_eqb_spec|split; comp]. Qed.
Definition byte_scheme : try_commit_verify (list byte) byte unit :=
  TryCommitVerify (fun m => match m with [] => Panic PExpect | [b] => Ret (Ok b) | _ => Ret (Err tt) end) Byte.eqb.
Lemma byte_eqb_spec x y : Byte.eqb x y = true <-> x = y.
Proof. apply byte_eqb_eq. Qed.
Lemma c40_try_commit_verify_case : (forall x y, tv_eq byte_scheme x y = true <-> x = y) /\
  tv_verify byte_scheme x01 [x01] = Ret (Ok tt) /\ tv_verify byte_scheme x01 [x02] = Ret (Err InvalidCommitment) /\
  tv_verify byte_scheme x01 [x01; x01] = Ret (Err InvalidMessage) /\ tv_verify byte_scheme x01 [] = Panic PExpect.
Proof. split; [exact byte_eqb_spec|split; [comp|split; [comp|split; comp]]]. Qed.
Lemma c41_verdict_case : em_verify dummy_embed [x01; x02] [x02] [x01] = Ok tt /\
  em_verify dummy_embed [x01; x02] [x03] [x01] = Err EvCommitmentMismatch.
Proof. split; comp. Qed.
Lemma bytes_eqb_refl l : bytes_eqb l l = true.
Proof. apply bytes_eqb_eq. reflexivity. Qed.
Lemma c41_complete_case : em_lawful dummy_embed /\ em_commit dummy_embed [x01] [x02] = Ok ([x01; x02], [x01]).
Proof.
  split; [|comp]. constructor.
  - intros c msg c' p E. injection E as _ <-. reflexivity.
  - exact bytes_eqb_refl.
  - exact bytes_eqb_refl.
Qed.
Lemma c41_sound_case : em_verify dummy_embed [x01; x02] [x02] [x01] = Ok tt. Proof. comp. Qed.
Lemma c41_never_proof_mismatch_case : forall p c, em_restore dummy_embed p c <> Err EvProofMismatch.
Proof. discriminate. Qed.
Lemma c42_verdict_case : exists c, cc_commit (@dummy_convolve toy) [] p1 [x02] = Ok (c, p1) /\
  cc_verify (@dummy_convolve toy) p1 [x02] c = Ok tt /\ cc_verify (@dummy_convolve toy) p1 [x03] c = Err CvCommitmentMismatch.
Proof. eexists. split; [vm_compute; reflexivity|split; comp]. Qed.
Lemma c42_complete_case : cc_lawful (@dummy_convolve toy) /\ exists c, cc_commit (@dummy_convolve toy) [] p1 [x02] = Ok (c, p1).
Proof.
  split; [|eexists; vm_compute; reflexivity]. constructor. intros src s msg c p E. exists c, p.
  cbn [dummy_convolve cc_commit cc_restore cc_suppl cc_proof_eq cc_cmt_eq] in *.
  destruct (input_with_len 0xFFFFFFFF (input_raw [] s) msg) as [e|q] eqn:X; [|discriminate].
  injection E as <- <-. rewrite X. split; [reflexivity|]. split; apply b32_eqb_eq; reflexivity.
Qed.

(** ** Statuses *)
Definition st_issue : status nat nat nat nat := Status [1] [] [2] [].
Definition st_fail : status nat nat nat nat := Status [] [3] [] [4].
Lemma c43_validity_case : status_validity (Status (Issue := nat) (Fail := nat) (Warn := nat) (Info := nat) [] [] [1] [2]) = Valid /\
  status_validity st_issue = SealIssues /\ status_validity (add_assign st_issue st_fail) = Invalid.
Proof. split; [comp|split; comp]. Qed.
Lemma c43_only_worse_case :
  status_validity (fold_left apply_event [EvWarn 1; EvIssue 2; EvInfo 3; EvMerge st_fail] status_new) = Invalid.
Proof. comp. Qed.
Lemma c44_monoid_case : add_assign st_issue st_fail = Status [1] [3] [2] [4] /\ add_assign st_issue st_fail = add_assign st_fail st_issue.
Proof. split; comp. Qed.
Lemma c44_events_case : fold_left apply_event [EvWarn 1; EvIssue 2; EvInfo 3; EvMerge st_fail; EvIssue 5] st_issue =
  Status [1; 2; 5] [3] [2; 1] [3; 4].
Proof. comp. Qed.
(** A resolver which counts its calls and rejects odd seals *)
Definition odd_resolver (r s : nat) : result unit nat * nat := (if Nat.odd s then Err s else Ok tt, S r).
Definition own : client_data nat nat nat nat nat := ClientData [9] st_issue.
Definition item1 : client_data nat nat nat nat nat := ClientData [2; 3] st_fail.
Definition item2 : client_data nat nat nat nat nat := ClientData [4; 5] status_new.
Lemma c45_report_case :
  client_side_validate odd_resolver own [item1; item2] 0 = (Status [1; 3; 5] [3] [2] [4], 4) /\
  resolves odd_resolver 0 [2; 3; 4; 5] [Ok tt; Err 3; Ok tt; Err 5] 4.
Proof. split; [comp|]. repeat (econstructor; [reflexivity|]). constructor. Qed.
Lemma c45_valid_case :
  fst (client_side_validate odd_resolver (ClientData [9] status_new) [ClientData [2; 4] (@status_new nat nat nat nat)] 0) = status_new /\
  resolves odd_resolver 0 [2; 4] [Ok tt; Ok tt] 2.
Proof. split; [comp|]. repeat (econstructor; [reflexivity|]). constructor. Qed.
Lemma c46_order_case : validity_cmp Invalid Valid = Lt /\ validity_cmp Valid SealIssues = Lt /\ worse Valid Invalid = Invalid.
Proof. split; [comp|split; comp]. Qed.

(** ** Seals: a witness is a list of closed seals with a message hash *)
Definition list_protocol : seal_protocol nat bytes32 (list nat * bytes32) no_witness bytes32 (list nat) unit Empty_set :=
  SealProtocol (fun s _ w => existsb (Nat.eqb s) (fst (fst w))) no_witness_convolve fst
               (fun pub p => if b32_eqb (snd pub) p then Ok tt else Err tt).
Lemma c47_verdict_case :
  verify_seals_closing list_protocol (witness_new ([1; 2; 3], m1) tt) [1; 3] m1 = Ok tt /\
  verify_seals_closing list_protocol (witness_new ([1; 2; 3], m1) tt) [1; 4; 5] m1 = Err (SeNotIncluded 4 [1; 2; 3]) /\
  verify_seals_closing list_protocol (witness_new ([1; 2; 3], m1) tt) [1; 3] m2 = Err (SePublished tt) /\
  verify_seals_closing list_protocol (witness_new ([1; 2; 3], m1) tt) [] m1 = Ok tt.
Proof. split; [comp|split; [comp|split; comp]]. Qed.
Lemma c47_one_seal_case :
  verify_seal_closing list_protocol (witness_new ([1; 2; 3], m1) tt) 2 m1 = Ok tt /\
  verify_seal_closing list_protocol (witness_new ([1; 2; 3], m1) tt) 7 m1 = Err (SeNotIncluded 7 [1; 2; 3]).
Proof. split; comp. Qed.
Lemma one_proof pub p q v w : sl_verify_commitment list_protocol pub p = Ok v -> sl_verify_commitment list_protocol pub q = Ok w -> p = q.
Proof.
  cbn. destruct (b32_eqb (snd pub) p) eqn:E; [|discriminate]. destruct (b32_eqb (snd pub) q) eqn:F; [|discriminate].
  intros _ _. apply b32_eqb_eq in E. apply b32_eqb_eq in F. congruence.
Qed.
Lemma c48_one_message_case :
  (forall pub p q v w, sl_verify_commitment list_protocol pub p = Ok v -> sl_verify_commitment list_protocol pub q = Ok w -> p = q) /\
  (forall cli x y p, sl_convolve list_protocol cli x = Ok p -> sl_convolve list_protocol cli y = Ok p -> x = y) /\
  verify_seals_closing list_protocol (witness_new ([1; 2; 3], m1) tt) [1; 3] m1 = Ok tt.
Proof.
  split; [exact one_proof|split; [|comp]]. intros cli x y p E F. cbn in *. unfold no_witness_convolve in *. congruence.
Qed.
Lemma c48_no_witness_case : sl_convolve list_protocol = no_witness_convolve /\
  verify_seals_closing list_protocol (witness_new ([1; 2; 3], m1) tt) [2] m1 = Ok tt.
Proof. split; [reflexivity|comp]. Qed.
(** The client-side witness is an MPC proof for [p1], the published one an MPC commitment. *)
Definition mpc_protocol : seal_protocol nat bytes32 (list nat * bytes32) merkle_proof bytes32 (list nat) unit unit :=
  SealProtocol (fun s _ w => existsb (Nat.eqb s) (fst (fst w)))
    (fun pf m => match @convolve toy Debug pf p1 m with Ret (Ok c) => Ok c | _ => Err tt end) fst
    (fun pub p => if b32_eqb (snd pub) p then Ok tt else Err tt).
Lemma c48_merkle_proofs_case :
  (forall w x c, sl_convolve mpc_protocol w x = Ok c -> @convolve toy Debug w p1 x = Ret (Ok c)) /\
  valid_proof pf1 /\ verify_seals_closing mpc_protocol (witness_new ([1; 2], c0) pf1) [1; 2] m1 = Ok tt /\
  verify_seals_closing mpc_protocol (witness_new ([1; 2], c0) pf1) [1; 2] m2 = Err (SePublished tt).
Proof.
  split; [|split; [split; [comp|split; [comp|cbn; lia]]|split; comp]].
  intros w x c. cbn [mpc_protocol sl_convolve]. destruct (@convolve toy Debug w p1 x) as [[y|y]|y]; congruence.
Qed.

(** ** Layouts *)
Lemma c49_text_case : exists x, to_vesper (CommitLayout (Fqn "Lib" "Id") (str "tag") steps0) = Ret x /\ length steps0 <= 255.
Proof. eexists. split; [vm_compute; reflexivity|cbn; lia]. Qed.
Lemma c49_identifies_case :
  let l := CommitLayout (Fqn "Lib" "Id") (str "tag") steps0 in
  let m := CommitLayout (Fqn "Lib" "Id") (str "tag") [StConcealed u8q] in
  exists x y, to_vesper l = Ret x /\ to_vesper m = Ret y /\ vprint x <> vprint y.
Proof. cbv zeta. eexists. eexists. split; [vm_compute; reflexivity|split; [vm_compute; reflexivity|discriminate]]. Qed.
Lemma c49_crate_layouts_case : exists l x, @commitment_layout toy merkle_block Debug (@ce_block toy) b1 = Ret l /\ to_vesper l = Ret x.
Proof. eexists. eexists. split; vm_compute; reflexivity. Qed.
