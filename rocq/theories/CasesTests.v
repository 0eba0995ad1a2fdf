(** Cases for C99. *)
From Verif Require Import Base OrdMap Strict Digest Merkle MpcAtoms MpcTree MpcBlock Engine Sha256 Schemes Suites MpcTests.
From Verif Require Import SpecHash SpecFull SpecTests TheoremsMpc TheoremsTests.
Local Open Scope nat_scope.
Local Ltac comp := vm_compute; reflexivity.

(** a cheap hash function *)
Definition summing : Hasher := fun l => b32_of_N (fold_left (fun a b => a + Byte.to_N b)%N l 1%N).
Definition drawn (l : list N) : list draw := map (fun x => (x, byte_of_N (7 * x))) l.
Definition nine_draws : list draw := drawn [5; 1073; 2 ^ 127 + 3; 41; 2 ^ 90; 98; 2 ^ 64 - 1; 1234567; 6]%N.
Lemma c99_always_case :
  length nine_draws = 9 /\ test_tree_empty 7 = Ret tt /\ @test_tree_conceal summing Debug nine_draws 7 = Ret tt /\
  @test_entropy summing Release (drawn [3; 3; 9]%N) 7 = Ret tt /\ @test_single_leaf_tree summing Debug (drawn [12]%N) 7 = Ret tt /\
  @test_determin_tree summing Debug [(1, [x01], 7%N); (4, [x01; x02; x03; x04], 8%N)] = Ret tt /\
  @test_sparse_tree summing Release [(drawn [1; 2]%N, 1%N); (drawn [4; 1; 7]%N, 9%N)] = Ret tt /\
  @test_merge_reveal summing Debug [(drawn [1; 2]%N, 1%N); (drawn [4; 1; 7]%N, 9%N)] = Ret tt.
Proof. repeat split; comp. Qed.
Lemma c99_det_case : make_det_messages 3 [x05; x06; x07] = [(b32_of_N 3, b32_fill x07)] /\
  length (make_random_messages (drawn [1; 2; 3]%N)) = 3.
Proof. repeat split; comp. Qed.
Lemma c99_id_case : length nine_draws = 9 /\ @test_tree_id summing Debug nine_draws 7 = Ret tt /\
  @test_tree_id (fun _ => b32_fill x00) Debug nine_draws 7 = Panic PAssert.
Proof. repeat split; comp. Qed.
Lemma c99_id_entropy_case : length nine_draws = 9 /\ u128 nine_draws /\ different nine_draws /\
  (exists x, In x [7; 8]%N /\ x <> 7%N) /\ @test_tree_id_entropy summing Debug nine_draws 7 [7; 8]%N = Ret tt.
Proof.
  split; [comp|]. split; [apply u128_check; comp|]. split; [apply nodup_NoDup; comp|]. split; [|comp].
  exists 8%N. split; [right; left; reflexivity|discriminate].
Qed.
Lemma c99_structure_case :
  (length nine_draws = 9 /\ u128 nine_draws /\ different nine_draws /\ test_tree_structure Debug nine_draws 7 = Ret tt) /\
  (length narrow = 9 /\ u128 narrow /\ different narrow /\ test_tree_structure Debug narrow 7 = Panic PAssert).
Proof.
  split; (split; [comp|]; split; [apply u128_check; comp|]; split; [apply nodup_NoDup; comp|comp]).
Qed.
Lemma room_check D draws d c : d <= D -> (c <= 500)%N -> (2 * c <= 2 ^ N.of_nat d)%N ->
  nodup N.eq_dec (map (fun x => fst x mod (2 ^ N.of_nat d - c))%N draws) = map (fun x => fst x mod (2 ^ N.of_nat d - c))%N draws ->
  room D draws.
Proof. intros A B C E. exists d, c. split; [exact A|]. split; [exact B|]. split; [exact C|]. apply nodup_NoDup. exact E. Qed.
Definition twelve_draws : list draw := drawn [0; 16; 32; 48; 64; 80; 96; 112; 128; 144; 160; 179]%N.
Lemma c99_sizing_case : 1 <= length twelve_draws < 1000 /\ u128 twelve_draws /\ different twelve_draws /\ room 31 twelve_draws /\
  test_tree_sizing [(twelve_draws, 3%N); (drawn [0; 0]%N, 4%N)] = Ret tt.
Proof.
  split; [cbn; lia|]. split; [apply u128_check; comp|]. split; [apply nodup_NoDup; comp|]. split; [|comp].
  apply (room_check 31 twelve_draws 4 3%N); [lia|lia|cbn; lia|comp].
Qed.
Definition odd_draws : list draw := map (fun i => ((2 * i + 1)%N, x01)) (N_from 0 500).
Lemma c99_scalability_case : length (repeat (odd_draws, 5%N) 10) = 10 /\
  Forall (fun r : run_of => length (fst r) = 500 /\ u128 (fst r) /\ different (fst r) /\ room 15 (fst r)) (repeat (odd_draws, 5%N) 10) /\
  ~ apart 512 odd_draws.
Proof.
  split; [reflexivity|]. split.
  - apply Forall_forall. intros r I. apply repeat_spec in I. subst r. cbn [fst]. split; [comp|]. split; [apply u128_check; comp|].
    split; [apply nodup_NoDup; comp|]. apply (room_check 15 odd_draws 10 0%N); [lia|lia|cbn; lia|comp].
  - intros A. apply (nodup_fixed_point N.eq_dec) in A. apply (f_equal (@length N)) in A. vm_compute in A. discriminate A.
Qed.
Definition many_draws : list draw := map (fun i => ((3 * i)%N, x01)) (N_from 0 (N.to_nat 8192)).
Lemma many_apart : apart (2 ^ N.of_nat 15 - 0) many_draws.
Proof.
  unfold apart, many_draws. rewrite map_map. cbn [fst]. change (2 ^ N.of_nat 15 - 0)%N with 32768%N. unfold N_from. rewrite map_map.
  rewrite (map_ext_in _ (fun i => (3 * N.of_nat i)%N)).
  - apply FinFun.Injective_map_NoDup; [|apply seq_NoDup]. intros a b E. lia.
  - intros i I. apply in_seq in I. rewrite N.add_0_l. apply N.mod_small. lia.
Qed.
Lemma c99_huge_case : N.of_nat (length many_draws) = 8192%N /\ u128 many_draws /\ different many_draws /\ room 31 many_draws.
Proof.
  split; [comp|]. split; [apply u128_check; comp|]. split.
  - unfold different, many_draws. rewrite map_map. cbn [fst]. unfold N_from. rewrite map_map. apply FinFun.Injective_map_NoDup; [|apply seq_NoDup].
    intros a b E. lia.
  - exists 15, 0%N. split; [lia|]. split; [lia|]. split; [cbn; lia|exact many_apart].
Qed.

(** The vectors of commit_verify/derive/tests/base.rs, through the derived implementations with SHA-256 *)
Definition dumb_id : strict_type := SType "TestLib" (Some "DumbId"%string).
Definition test_type (n : string) : strict_type := SType "TestLib" (Some n).
Definition id_hex {A} (I : commit_encode A) (v : A) : option string :=
  match @commit_id sha256 A Release I v with Ret x => Some (hex x) | Panic _ => None end.
(** base.rs:62-77 [strategy_transparent] *)
Definition short_len : commit_encode N := @derive_transparent N N [] dumb_id (Typed (SType "StdLib" (Some "U16"%string)) (c_le 2)) (fun x => x).
Example base_transparent :
  id_hex short_len 0%N = Some "2bb00b2f346511235882255a898a224b6858e18ebec0a11967eb51f0ed1a2ff5"%string /\
  id_hex short_len 0xFFde%N = Some "0290490b549dfcb8a222d42abf53afbd9fadcef480bc61d7a9aeaf19288b394c"%string.
Proof. split; comp. Qed.
(** base.rs:79-99 [strategy_strict_enum] *)
Definition prim : commit_encode byte := @derive_strict byte [] dumb_id (Typed (test_type "Prim") c_byte).
Example base_enum :
  id_hex prim x00 = Some "82c0f0f259e8cffecead54325fadb48f15a4e761dae5ffaf31209993eacbb24d"%string /\
  id_hex prim x01 = Some "6db0981aac502e87a0498d169599ceace4c6480a182590d47e82d63b85cb3c72"%string /\
  id_hex prim x02 = Some "e4648d71abe10c0efd626b803ac86d57b1cdc8842f6baa9799ef95cf510784b6"%string.
Proof. repeat split; comp. Qed.
(** base.rs:101-139 [strategy_strict_tuple], [strategy_strict_struct] *)
Definition tagged_info : commit_encode (N * N) :=
  @derive_strict _ [] dumb_id (Typed (test_type "TaggedInfo") (c_pair (c_le 2) (c_le 8))).
Example base_struct :
  id_hex tagged_info (0xdead, 0xbeefcafebaddafec)%N = Some "8506078e6f47e4b75470cb45a18922785f1a54ba4501473b80ba7b0c363d7490"%string.
Proof. comp. Qed.
(** base.rs:141-204 [enum_associated], [enum_custom_tags]: the variant [One] with its tag *)
Definition assoc : commit_encode (byte * (bytes32 * byte)) :=
  @derive_strict _ [] dumb_id (Typed (test_type "Assoc") (c_pair c_byte (c_pair c_b32 c_byte))).
Example base_associated :
  id_hex assoc (x00, (b32_fill x00, x01)) = Some "18cc83e934de8ad385ce41c8c9b6a2ee3331817907d6ccf8c5ba4ca3570e65a3"%string /\
  id_hex assoc (x08, (b32_fill x08, x01)) = Some "67e6cd9574e329906d28ce7143aef7124372e04d09bd46b130445fec2baf9fc6"%string.
Proof. split; comp. Qed.
(** base.rs:206-229 [conceal]: the variants as [N] or [byte] *)
Definition data_codec : codec (byte * byte) := c_pair c_byte c_byte.
Definition data_conceal (_ : mode) (_ : N + byte) : outcome (N + byte) := Ret (inr xde).
Definition data : commit_encode (N + byte) :=
  @derive_conceal _ _ _ [] dumb_id data_conceal (test_type "Data")
    (fun md x => y <- data_conceal md x ;; Ret (x01, match y with inr b => b | inl _ => x00 end)) data_codec.
Example base_conceal : id_hex data (inl 0xcafe1234%N) = Some "fd5ee38918347000fc3cbf31def233b226d14a47bbc6bac18fd6389c3fd16d2e"%string.
Proof. comp. Qed.
