(** Cases for the theorems about extending hashed strings. *)
From Verif Require Import Base BaseFacts OrdMap Strict Digest Merkle MpcAtoms MpcTree MpcBlock Sha256.
From Verif Require Import SpecHash SpecTree SpecFull SpecCodec SpecEngine SpecSha SpecValid SpecExtend ShaProofs CodecProofs TheoremsMpc CasesMpc TheoremsExtend.
Local Open Scope nat_scope.

Lemma padded_pad x p : p = pad x -> padded x p.
Proof. intros ->. apply pad_padded. Qed.
Lemma c97_extension_case : exists p d', padded (str "abc") p /\ length p = 64 /\
  resumes (b32 (sha256 (str "abc"))) 64 (str "def") d' /\ d' = b32 (sha256 (p ++ str "def")) /\ d' <> b32 (sha256 (str "abc")).
Proof.
  exists (pad (str "abc")), (b32 (sha256 (pad (str "abc") ++ str "def"))).
  assert (P : padded (str "abc") (pad (str "abc"))) by apply pad_padded.
  split; [exact P|split; [comp|split; [|split; [reflexivity|vm_compute; discriminate]]]].
  exact (proj1 (c97_extension _ _ (str "def") P)).
Qed.
(** When all hashes are equal, the string of a commitment is extended to the string of a branch. *)
Definition ext_root : bytes32 := b32_of_N (7 * 2 ^ 248).
Definition ext_left : bytes32 :=
  match b32_of ([x07; x80] ++ repeat x00 20 ++ s_be 8 792 ++ [x01; x02]) with Some b => b | None => b32_fill x00 end.
Lemma c97_mpc_case : exists x p s, @mpc_string flat x /\ padded x p /\ @mpc_string flat (p ++ s).
Proof.
  exists (@s_commit flat 2 5 ext_root), (pad (@s_commit flat 2 5 ext_root)), ([x01; x02] ++ b32 m1).
  split; [constructor|split; [apply pad_padded|]].
  replace (pad (@s_commit flat 2 5 ext_root) ++ [x01; x02] ++ b32 m1) with (@s_branch flat 5 0 ext_left m1) by comp. constructor.
Qed.
Lemma c97_mpc_sha_case : exists x p s, @mpc_string sha256 x /\ padded x p /\ length (p ++ s) = 162 /\
  length (@s_branch sha256 5 0 ext_left m1) = 162.
Proof.
  exists (@s_commit sha256 2 5 ext_root), (pad (@s_commit sha256 2 5 ext_root)), ([x01; x02] ++ b32 m1).
  split; [constructor|split; [apply pad_padded|split; comp]].
Qed.
Lemma c97_listed_case : In (@s_leaf toy p1 m1) (@tree_pre toy t0) /\ In (@s_leaf toy p1 m1) (@proof_pre toy (MProof Sha256t 0 1 [m2; p3]) p1 m1).
Proof. split; vm_compute; tauto. Qed.
Lemma c97_values_case : exists p, lawful c_merkle_proof valid_proof /\ valid_proof (MProof Sha256t 0 1 []) /\ valid_proof (MProof Sha256t 0 1 [m2; p3]) /\
  padded (@s_pre toy (str "tag") (enc c_merkle_proof (MProof Sha256t 0 1 []))) p.
Proof.
  exists (pad (@s_pre toy (str "tag") (enc c_merkle_proof (MProof Sha256t 0 1 [])))).
  split; [exact c_merkle_proof_lawful|split; [|split; [|apply pad_padded]]]; repeat split; cbn; lia.
Qed.
Lemma c97_tags_case : exists p s, padded (@s_pre flat (str "a") []) p /\ p ++ s = @s_pre flat (str "b") (skipn 64 (p ++ s)).
Proof. exists (pad (@s_pre flat (str "a") [])), [x07]. split; [apply pad_padded|comp]. Qed.
(** The digest of two framed strings gives the digest of three. *)
Lemma c97_framed_refuted_case : exists e' p s d, prefix_size 65535 2 /\ inputs_with_len 65535 [] [[x01]; [x02; x03]] = Ret e' /\
  padded e' p /\ (N.of_nat (length e') < 2 ^ 37)%N /\ length (p ++ s) = length e' + 2 + 128 /\
  inputs_with_len 65535 [] [[x01]; [x02; x03]; d] = Ret (p ++ s).
Proof.
  set (e := [x01; x00; x01; x02; x00; x02; x03]).
  exists e, (pad e), (repeat x07 73), (skipn 9 (pad e) ++ repeat x07 73).
  split; [constructor; split; [discriminate|reflexivity]|]. split; [comp|]. split; [apply pad_padded|]. split; [reflexivity|]. split; comp.
Qed.
