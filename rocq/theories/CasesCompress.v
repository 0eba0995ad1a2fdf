(** Cases for the theorems about the published hash functions. *)
From Verif Require Import Base Sha256 Ripemd SpecSha SpecRipemd SpecCompress TheoremsMpc CasesMpc TheoremsCompress.
Local Open Scope nat_scope.

Lemma c98_sha256_case : exists d, sha_published (str "abc") d /\ hex d = "ba7816bf8f01cfea414140de5dae2223b00361a396177a9cb410ff61f20015ad"%string.
Proof. exists (b32 (sha256 (str "abc"))). split; [apply c98_sha256; reflexivity|comp]. Qed.
Lemma c98_ripemd160_case : exists d, rmd_published (str "12345678901234567890123456789012345678901234567890123456789012345678901234567890") d /\
  hex d = "9b752e45573d4b39f4dbd3323cab82bf63326bfb"%string.
Proof. eexists. split; [apply c98_ripemd160; reflexivity|comp]. Qed.
Lemma c98_sha_step_case : proper_input (iv, repeat 7%N 16) /\ sa (compress iv (repeat 7%N 16)) <> sa iv.
Proof. split; [repeat split; repeat constructor|vm_compute; discriminate]. Qed.
Lemma c98_rmd_step_case : rproper_input (riv, repeat 7%N 16) /\ ra (rcompress riv (repeat 7%N 16)) <> ra riv.
Proof. split; [repeat split; repeat constructor|vm_compute; discriminate]. Qed.
